(** Properties of the logarithmic arithmetic: proofs of the theorems of
    PropLog.v. *)
From Coq Require Import ZArith Reals Bool Lia Lra List.
From Flocq Require Import Core.Core IEEE754.BinarySingleNaN.
From Verif Require Import CModel FloatModel WidthConv Codec Spec CodeFacts SpecFacts ValueFacts RoundFacts
  WidthFacts WidthProps FloatFacts DecodeFacts EncodeFacts PhiFacts Codec8Facts Arith LogApi Machine LogFacts PowFacts.
Local Open Scope R_scope.

(** ** Correct rounding *)
Lemma mul_correct : forall n f a b, log_multiplication n f -> n <> 64%Z -> is_intn n a -> is_intn n b ->
  exists t, f a b = Val t /\ is_intn n t /\
  match value Logarithmic n a, value Logarithmic n b with
  | Some x, Some y => rounds Logarithmic n (x * y) t
  | _, _ => t = nar n
  end.
Proof.
  intros n f a b H N Ia Ib. apply log_multiplication_inv in H as (m & Hm & <- & Hf & Hp). rewrite Hf.
  destruct (g_mul_spec m Hm a b Ia Ib) as (t & E & It & V). exists t. split; [assumption|]. split; [assumption|].
  destruct (value Logarithmic (m_n m) a), (value Logarithmic (m_n m) b); try assumption. apply V. apply Hp. assumption.
Qed.

Lemma mul_faithful : forall n f a b, log_multiplication n f -> is_intn n a -> is_intn n b ->
  exists t, f a b = Val t /\ is_intn n t /\
  match value Logarithmic n a, value Logarithmic n b with
  | Some x, Some y => rounds_faithfully Logarithmic n (x * y) t
  | _, _ => t = nar n
  end.
Proof.
  intros n f a b H Ia Ib. apply log_multiplication_inv in H as (m & Hm & <- & Hf & Hp). rewrite Hf.
  destruct (g_mul_spec m Hm a b Ia Ib) as (t & E & It & V). exists t. split; [assumption|]. split; [assumption|].
  destruct (value Logarithmic (m_n m) a), (value Logarithmic (m_n m) b); try assumption. apply V.
Qed.

Lemma div_correct : forall n f a b, log_division n f -> n <> 64%Z -> is_intn n a -> is_intn n b ->
  exists t, f a b = Val t /\ is_intn n t /\
  match value Logarithmic n a, value Logarithmic n b with
  | Some x, Some y => (y = 0 /\ t = nar n) \/ (y <> 0 /\ rounds Logarithmic n (x / y) t)
  | _, _ => t = nar n
  end.
Proof.
  intros n f a b H N Ia Ib. apply log_division_inv in H as (m & Hm & <- & Hf & Hp). rewrite Hf.
  destruct (g_div_spec m Hm a b Ia Ib) as (t & E & It & V). exists t. split; [assumption|]. split; [assumption|].
  destruct (value Logarithmic (m_n m) a), (value Logarithmic (m_n m) b); try assumption. destruct (Req_bool_spec r0 0); [left; auto|right].
  split; [assumption|]. apply V. apply Hp. assumption.
Qed.

Lemma div_faithful : forall n f a b, log_division n f -> is_intn n a -> is_intn n b ->
  exists t, f a b = Val t /\ is_intn n t /\
  match value Logarithmic n a, value Logarithmic n b with
  | Some x, Some y => (y = 0 /\ t = nar n) \/ (y <> 0 /\ rounds_faithfully Logarithmic n (x / y) t)
  | _, _ => t = nar n
  end.
Proof.
  intros n f a b H Ia Ib. apply log_division_inv in H as (m & Hm & <- & Hf & Hp). rewrite Hf.
  destruct (g_div_spec m Hm a b Ia Ib) as (t & E & It & V). exists t. split; [assumption|]. split; [assumption|].
  destruct (value Logarithmic (m_n m) a), (value Logarithmic (m_n m) b); try assumption. destruct (Req_bool_spec r0 0); [left; auto|right].
  split; [assumption|]. apply V.
Qed.

Lemma sqrt_correct : forall n f t, log_square_root n f -> is_intn n t ->
  exists u, f t = Val u /\ is_intn n u /\
  match value Logarithmic n t with
  | None => u = nar n
  | Some x => (x < 0 /\ u = nar n) \/ (0 <= x /\ rounds Logarithmic n (sqrt x) u)
  end.
Proof.
  intros n f t H It. apply log_square_root_inv in H as (m & Hm & <- & Hf). rewrite Hf.
  destruct (g_sqrt_spec m Hm t It) as (u & E & Iu & V). exists u. split; [assumption|]. split; [assumption|].
  destruct (value Logarithmic (m_n m) t); try assumption. destruct (Rlt_bool_spec r 0); [left; auto|right; auto].
Qed.

Lemma pow_correct : forall n f t e, log_integer_power n f -> is_intn n t -> is_int64 e ->
  exists u, f t e = Val u /\ is_intn n u /\
  match value Logarithmic n t with
  | None => u = nar n
  | Some x => (x = 0 /\ (e <= 0)%Z /\ u = nar n) \/
              ((x <> 0 \/ (0 < e)%Z) /\ rounds Logarithmic n (powerRZ x e) u)
  end.
Proof.
  intros n f t e H It He. apply log_integer_power_inv in H as (m & Hm & <- & Hf & Hp). rewrite Hf.
  destruct (g_pow_spec m Hm t e Hp It He) as (u & E & Iu & V). exists u. split; [assumption|]. split; [assumption|].
  destruct (value Logarithmic (m_n m) t); try assumption.
  destruct (Req_bool_spec r 0), (Z.leb_spec e 0); simpl in V; auto.
Qed.

Lemma root_correct : forall n f t e, log_root n f -> n <> 64%Z -> is_intn n t -> is_int64 e ->
  exists u, f t e = Val u /\ is_intn n u /\
  match value Logarithmic n t with
  | None => u = nar n
  | Some x => (exists y, is_root e x y /\ rounds Logarithmic n y u) \/
              ((forall y, ~ is_root e x y) /\ u = nar n)
  end.
Proof.
  intros n f t e H N It He. apply log_root_inv in H as (m & Hm & <- & Hf & Hp & _). rewrite Hf.
  destruct (g_root_spec m Hm t e It He) as (u & E & Iu & V). exists u. split; [assumption|]. split; [assumption|].
  destruct (value Logarithmic (m_n m) t); try assumption. destruct (has_root e r) eqn:R.
  - destruct V as (y & Hy & V & _). left. exists y. auto.
  - right. split; [|assumption]. intros y. apply no_root. assumption.
Qed.

Lemma root_faithful : forall f t e, log_root 64 f -> is_intn 64 t -> is_int64 e ->
  exists u, f t e = Val u /\ is_intn 64 u /\
  match value Logarithmic 64 t with
  | None => u = nar 64
  | Some x => (exists y, is_root e x y /\ rounds_faithfully Logarithmic 64 y u) \/
              ((forall y, ~ is_root e x y) /\ u = nar 64)
  end.
Proof.
  intros f t e H It He. apply log_root_inv in H as (m & Hm & En & Hf & _ & Hp). rewrite Hf. specialize (Hp eq_refl).
  rewrite <- En in It |- *.
  destruct (g_root_spec m Hm t e It He) as (u & E & Iu & V). exists u. split; [assumption|]. split; [assumption|].
  destruct (value Logarithmic (m_n m) t); try assumption. destruct (has_root e r) eqn:R.
  - destruct V as (y & Hy & _ & V). left. exists y. split; [assumption|]. apply V. lia.
  - right. split; [|assumption]. intros y. apply no_root. assumption.
Qed.

(** the root is unique, so the statements above determine the result *)
Lemma is_root_unique : forall e x y z, is_root e x y -> is_root e x z -> y = z.
Proof.
  assert (forall e a b, e <> 0%Z -> 0 < a -> 0 < b -> powerRZ a e = powerRZ b e -> a = b) as HP.
  { intros e a b He Ha Hb H. rewrite !powerRZ_Rpower in H by assumption. unfold Rpower in H. apply exp_inv in H.
    apply ln_inv; try assumption. apply Rmult_eq_reg_l with (IZR e); [assumption|]. apply not_0_IZR. assumption. }
  intros e x y z (He & _ & Hy & Y1 & Y2 & Y3) (_ & _ & Hz & Z1 & Z2 & Z3).
  destruct (Rtotal_order x 0) as [C|[C|C]].
  - specialize (Y2 C). specialize (Z2 C). assert (- y = - z); [|lra].
    apply (HP e); try lra; try assumption.
    replace (- y) with (-1 * y) by ring. replace (- z) with (-1 * z) by ring. rewrite !powerRZ_mult. congruence.
  - rewrite Y3, Z3 by assumption. reflexivity.
  - apply (HP e); auto. congruence.
Qed.

(** ** The results as codes, without psi *)
Lemma FF_ulp_dyadic : forall F y d, (0 <= d <= - femin F)%Z -> FF F y -> bpow radix2 (fprec F - d) <= Rabs y ->
  exists k, y = IZR k * bpow radix2 (- d).
Proof.
  intros F y d Hd HF Hy. pose proof HF as HG. unfold FF, generic_format, F2R, scaled_mantissa, cexp in HG. cbn [Fnum Fexp] in HG.
  set (z := Ztrunc _) in HG. set (c := fexpo F (mag radix2 y)) in *.
  assert (- d <= c)%Z as Hc.
  {
    assert (fprec F - d < mag radix2 y)%Z by (apply mag_gt_bpow; assumption).
    unfold c. rewrite fexpo_FLT. unfold FLT_exp. lia. }
  exists (z * 2 ^ (c + d))%Z. rewrite mult_IZR, IZR_pow2, Rmult_assoc, <- bpow_plus by lia.
  replace (c + d + - d)%Z with c by lia. exact HG.
Qed.

Lemma RF_dyadic : forall F k d, (0 <= d <= - femin F)%Z ->
  exists k', RF F (IZR k * bpow radix2 (- d)) = IZR k' * bpow radix2 (- d).
Proof.
  intros F k d Hd. pose proof (fmt_pos F).
  destruct (Z_le_gt_dec (Z.abs k) (2 ^ fprec F)) as [C|C].
  - exists k. apply RF_id. apply FF_dyadic; [assumption|lia].
  - apply (FF_ulp_dyadic F); [assumption|apply RF_FF|].
    apply abs_round_ge_generic; [apply fexpo_valid|apply valid_rnd_N|apply FF_bpow; lia|].
    rewrite Rabs_mult, (Rabs_pos_eq (bpow _ _)) by apply bpow_ge_0.
    unfold Z.sub. rewrite bpow_plus. apply Rmult_le_compat_r; [apply bpow_ge_0|].
    rewrite <- IZR_pow2, <- abs_IZR by lia. apply IZR_le. lia.
Qed.

Section M.
Variable m : mach.
Hypothesis Hm : mach_ok m.
Local Notation n := (m_n m).
Local Notation F := (m_F m).

Definition code (s : bool) (L : R) : Z := asm n s (enc n (sg s * RF F L)).

Lemma mrange : (6 <= n <= 64)%Z.
Proof. pose proof (mo_range m Hm). lia. Qed.

Lemma psi_RF : forall s k, m_psi m (sg s * RF F (IZR k * bpow radix2 (- (n - 5)))) =
  sg s * RF F (IZR k * bpow radix2 (- (n - 5))).
Proof.
  intros s k. pose proof mrange. pose proof (mo_P m Hm). pose proof (fmt_pos F).
  destruct (RF_dyadic F k (n - 5) ltac:(lia)) as [k' ->].
  replace (sg s * (IZR k' * bpow radix2 (- (n - 5)))) with (IZR ((if s then -1 else 1) * k') * bpow radix2 (- (n - 5))).
  - apply (psi_dyadic m Hm). lia.
  - rewrite mult_IZR. unfold sg. destruct s; ring.
Qed.

Lemma g_mul_code : forall a b, is_real_takum n a -> is_real_takum n b ->
  g_mul m a b = Val (code (xorb (a <? 0) (b <? 0))%Z (l_ n a + l_ n b)).
Proof.
  intros a b Ha Hb. rewrite (g_mul_real m Hm) by assumption. unfold code.
  destruct (sum_dyadic m Hm a b Ha Hb) as [[k ->] _]. cbv zeta. rewrite psi_RF. reflexivity.
Qed.
Lemma g_div_code : forall a b, is_real_takum n a -> is_real_takum n b ->
  g_div m a b = Val (code (xorb (a <? 0) (b <? 0))%Z (l_ n a - l_ n b)).
Proof.
  intros a b Ha Hb. rewrite (g_div_real m Hm) by assumption. unfold code.
  destruct (diff_dyadic m Hm a b Ha Hb) as [[k ->] _]. cbv zeta. rewrite psi_RF. reflexivity.
Qed.

Lemma code_real : forall s L, is_real_takum n (code s L).
Proof. intros s L. apply asm_enc_intn. apply mrange. Qed.
Lemma code_sign : forall s L, (code s L <? 0)%Z = s.
Proof. intros s L. apply asm_neg. pose proof (enc_range n mrange (sg s * RF F L)). lia. Qed.

Lemma FF_l : forall t, is_real_takum n t -> FF F (l_ n t).
Proof. intros t Ht. destruct (mo_dec m Hm t Ht) as (l & _ & Hl). eapply isf_FF; eassumption. Qed.

Lemma code_self : forall t, is_real_takum n t -> code (t <? 0)%Z (l_ n t) = t.
Proof.
  intros t Ht. pose proof mrange. unfold code. rewrite RF_id by (apply FF_l; assumption).
  rewrite (l_sg_cpm n t) by assumption. rewrite <- Rmult_assoc, sg_sq, Rmult_1_l.
  pose proof (real_low_pos n t ltac:(lia) Ht). rewrite enc_cpm by assumption. apply asm_low; [lia|apply Ht].
Qed.

Lemma code_neg : forall s L, code (negb s) L = (- code s L)%Z.
Proof.
  intros s L. unfold code. rewrite sg_negb, Ropp_mult_distr_l_reverse, enc_opp by apply mrange.
  unfold asm. destruct s; simpl; ring.
Qed.

Lemma code_mono_pos : forall L L', L <= L' -> (code false L <= code false L')%Z.
Proof.
  intros L L' H. unfold code, asm, sg. rewrite !Rmult_1_l. apply enc_mono; [apply mrange|]. apply RF_mono. assumption.
Qed.
Lemma code_mono_neg : forall L L', L <= L' -> (code true L' <= code true L)%Z.
Proof.
  intros L L' H. pose proof (code_mono_pos L L' H). change true with (negb false). rewrite !code_neg. lia.
Qed.

Lemma one_real : is_real_takum n (ONE n) /\ l_ n (ONE n) = 0 /\ (0 < ONE n)%Z.
Proof.
  destruct (mo_n m Hm) as [-> |[-> |[-> | ->]]]; (split; [|split; [|reflexivity]]);
    try (unfold is_real_takum, is_intn, ONE, nar; simpl; lia);
    unfold l_, sgn, m_; match goal with |- context [IZR (S_ ?a ?b)] => change (S_ a b) with 0%Z end;
    match goal with |- context [IZR (c_ ?a ?b)] => replace (c_ a b) with 0%Z by (vm_compute; reflexivity) end;
    match goal with |- context [IZR (M_ ?a ?b)] => replace (M_ a b) with 0%Z by (vm_compute; reflexivity) end;
    unfold Rdiv; ring.
Qed.
End M.

(** ** Inversion *)
Lemma lxor_ones : forall a k, (0 <= k)%Z -> Z.lxor a (2 ^ k - 1) = (a / 2 ^ k * 2 ^ k + (2 ^ k - 1 - a mod 2 ^ k))%Z.
Proof.
  intros a k Hk. pose proof (pow2_pos k Hk) as Hp. pose proof (Z.mod_pos_bound a (2 ^ k) Hp) as Hb.
  set (y := (2 ^ k - 1 - a mod 2 ^ k)%Z).
  assert (y = Z.lnot a mod 2 ^ k)%Z as Ey.
  { unfold y, Z.lnot. apply Z.mod_unique with (q := (- (a / 2 ^ k) - 1)%Z); [left; lia|].
    pose proof (Z.div_mod a (2 ^ k) ltac:(lia)). lia. }
  assert (0 <= y < 2 ^ k)%Z as By by (unfold y; lia).
  replace (2 ^ k - 1)%Z with (Z.ones k) by (rewrite Z.ones_equiv; lia).
  apply Z.bits_inj'. intros i Hi. rewrite Z.lxor_spec.
  destruct (Z.lt_ge_cases i k) as [C|C].
  - rewrite Z.ones_spec_low by lia. rewrite xorb_true_r.
    rewrite <- (Z.mod_pow2_bits_low (a / 2 ^ k * 2 ^ k + y) k i) by lia.
    rewrite Z.add_comm, Z.mod_add, Z.mod_small, Ey, Z.mod_pow2_bits_low, Z.lnot_spec by lia. reflexivity.
  - rewrite Z.ones_spec_high by lia. rewrite xorb_false_r.
    replace i with (i - k + k)%Z by lia. rewrite <- !Z.div_pow2_bits by lia. f_equal.
    rewrite Z.add_comm, Z.div_add, (Z.div_small y) by lia. lia.
Qed.

Lemma inversion_eq : forall n t, (6 <= n <= 64)%Z -> is_intn n t -> inversion n t =
  Val (if (t =? 0)%Z || (t =? nar n)%Z then nar n else asm n (t <? 0)%Z (2 ^ (n - 1) - low n t)).
Proof.
  intros n t Hn It. unfold inversion. change (NaR n) with (nar n). f_equal.
  destruct (Z.eqb_spec t (nar n)) as [N|N]; [rewrite orb_true_r; reflexivity|]. rewrite orb_false_r.
  pose proof (pow2_pos (n - 1) ltac:(lia)) as Hp.
  assert (2 ^ n = 2 * 2 ^ (n - 1))%Z as E2 by (rewrite <- Z.pow_succ_r by lia; f_equal; lia).
  rewrite lxor_ones by lia.
  assert (to_u n t mod 2 ^ (n - 1) = low n t)%Z as E1.
  { unfold to_u, low. rewrite E2, Z.mul_comm, Z.rem_mul_r, Z.mul_comm, Z.mod_add, Z.mod_mod by lia. reflexivity. }
  rewrite E1. rewrite low_cases in * by (assumption || lia).
  assert (to_u n t = t + (if t <? 0 then 2 ^ n else 0))%Z as E3.
  { unfold to_u. unfold is_intn in It. destruct (Z.ltb_spec t 0).
    - symmetry. apply Z.mod_unique with (q := (-1)%Z); [left; lia|lia].
    - rewrite Z.mod_small by lia. lia. }
  assert (to_u n t / 2 ^ (n - 1) = if t <? 0 then 1 else 0)%Z as E4.
  { rewrite E3. unfold is_intn in It. destruct (Z.ltb_spec t 0).
    - symmetry. apply Z.div_unique with (r := (t + 2 ^ (n - 1))%Z); lia.
    - apply Z.div_small. lia. }
  rewrite E4. unfold is_intn, nar in *.
  destruct (Z.eqb_spec t 0) as [->|N0].
  - apply to_s_eq with (k := 1%Z); [lia|unfold is_intn; lia|]. change (0 <? 0)%Z with false. cbv iota.
    unfold to_u. rewrite Z.mod_small by lia. lia.
  - unfold asm. destruct (Z.ltb_spec t 0).
    + apply to_s_eq with (k := 1%Z); [lia|unfold is_intn; lia|]. unfold to_u. rewrite Z.mod_small by lia. lia.
    + apply to_s_eq with (k := 0%Z); [lia|unfold is_intn; lia|]. unfold to_u. rewrite Z.mod_small by lia. lia.
Qed.

Definition inv_code (n t : Z) : Z := asm n (t <? 0)%Z (2 ^ (n - 1) - low n t).

Lemma inv_code_facts : forall n t, (6 <= n <= 64)%Z -> is_real_takum n t ->
  is_real_takum n (inv_code n t) /\ (inv_code n t <? 0)%Z = (t <? 0)%Z /\ l_ n (inv_code n t) = - l_ n t.
Proof.
  intros n t Hn Ht. pose proof (real_low_pos n t ltac:(lia) Ht) as Hl. unfold inv_code.
  assert (is_real_takum n (asm n (t <? 0)%Z (2 ^ (n - 1) - low n t))) as Hr by (apply asm_real; lia).
  split; [assumption|]. rewrite asm_neg by lia. split; [reflexivity|].
  rewrite (l_asm n Hn) by lia. rewrite cpm_opp by (assumption || lia). rewrite (l_cpm n Hn t Ht). ring.
Qed.

Lemma inversion_real : forall n t, (6 <= n <= 64)%Z -> is_real_takum n t -> inversion n t = Val (inv_code n t).
Proof.
  intros n t Hn (It & N0 & N). rewrite inversion_eq by assumption. apply Z.eqb_neq in N0, N. rewrite N0, N. reflexivity.
Qed.

Lemma log_inversion_inv : forall n f, log_inversion n f -> f = inversion n /\ (8 <= n <= 64)%Z.
Proof. intros n f []; split; reflexivity || lia. Qed.

Lemma value_nonzero : forall n t x, (8 <= n <= 64)%Z -> is_intn n t -> value Logarithmic n t = Some x ->
  x <> 0 -> is_real_takum n t.
Proof.
  intros n t x Hn It V Hx. destruct (takum_cases n t It) as [->|[->|R]]; [| |assumption].
  - rewrite value_0 in V. congruence.
  - rewrite value_nar in V by lia. discriminate.
Qed.

Lemma inversion_lossless : forall n f t, log_inversion n f -> is_intn n t ->
  exists u, f t = Val u /\ is_intn n u /\
  match value Logarithmic n t with
  | None => u = nar n
  | Some x => (x = 0 /\ u = nar n) \/ (x <> 0 /\ value Logarithmic n u = Some (/ x))
  end.
Proof.
  intros n f t H It. apply log_inversion_inv in H as [-> Hn]. pose proof (pow2_pos (n - 1) ltac:(lia)).
  assert (is_intn n (nar n)) as IN by (unfold is_intn, nar; lia).
  destruct (takum_cases n t It) as [->|[->|R]].
  - rewrite inversion_eq, value_0 by (assumption || lia). rewrite Z.eqb_refl. simpl orb. eauto 6.
  - rewrite inversion_eq, value_nar by (assumption || lia). rewrite Z.eqb_refl, orb_true_r. eauto.
  - rewrite inversion_real by (assumption || lia). destruct (inv_code_facts n t ltac:(lia) R) as (R' & S & L).
    exists (inv_code n t). split; [reflexivity|]. split; [apply R'|].
    rewrite !value_log_real by assumption. right. split; [pose proof (exp_pos (l_ n t / 2)); unfold sg; destruct (t <? 0)%Z; lra|].
    rewrite S, L. f_equal. rewrite Rinv_mult. f_equal; [unfold sg; destruct (t <? 0)%Z; field|].
    replace (- l_ n t / 2) with (- (l_ n t / 2)) by field. apply exp_Ropp.
Qed.

Lemma inversion_involutive : forall n f t, log_inversion n f -> is_real_takum n t ->
  exists u, f t = Val u /\ f u = Val t.
Proof.
  intros n f t H R. apply log_inversion_inv in H as [-> Hn].
  destruct (inv_code_facts n t ltac:(lia) R) as (R' & S & L). exists (inv_code n t).
  rewrite !inversion_real by (assumption || lia). split; [reflexivity|]. f_equal.
  destruct (inv_code_facts n _ ltac:(lia) R') as (R'' & S' & L').
  apply (l_inj n ltac:(lia)); try assumption; [congruence|]. lra.
Qed.

Lemma inversion_order : forall n f a b u v, log_inversion n f -> is_real_takum n a -> is_real_takum n b ->
  ((0 < a)%Z <-> (0 < b)%Z) -> f a = Val u -> f b = Val v -> ((a < b)%Z <-> (v < u)%Z).
Proof.
  intros n f a b u v H Ra Rb Hs Ea Eb. apply log_inversion_inv in H as [-> Hn].
  rewrite inversion_real in Ea, Eb by (assumption || lia). injection Ea as <-. injection Eb as <-.
  pose proof (real_low_pos n a ltac:(lia) Ra). pose proof (real_low_pos n b ltac:(lia) Rb).
  pose proof (proj1 (proj2 Ra)). pose proof (proj1 (proj2 Rb)).
  unfold inv_code, asm. rewrite !low_cases in * by (lia || apply Ra || apply Rb).
  destruct (Z.ltb_spec a 0), (Z.ltb_spec b 0); lia.
Qed.

(** ** Algebra *)
Section M2.
Variable m : mach.
Hypothesis Hm : mach_ok m.
Local Notation n := (m_n m).

Lemma g_mul_comm : forall a b, is_intn n a -> is_intn n b -> g_mul m a b = g_mul m b a.
Proof.
  intros a b Ia Ib.
  destruct (takum_cases n a Ia) as [Ea|[Ea|Ra]]; [rewrite !(g_mul_special m Hm), orb_comm by auto; reflexivity..|].
  destruct (takum_cases n b Ib) as [Eb|[Eb|Rb]]; [rewrite !(g_mul_special m Hm), orb_comm by auto; reflexivity..|].
  rewrite !(g_mul_code m Hm) by assumption. rewrite xorb_comm, Rplus_comm. reflexivity.
Qed.

Lemma nar_ne_0 : nar n <> 0%Z.
Proof. pose proof (mo_range m Hm). unfold nar. pose proof (pow2_pos (n - 1) ltac:(lia)). lia. Qed.

Lemma one_ne : ONE n <> nar n /\ ONE n <> 0%Z /\ is_intn n (ONE n).
Proof. destruct (one_real m Hm) as (R & _). unfold is_real_takum in R. tauto. Qed.

Lemma g_mul_one : forall a, is_intn n a -> g_mul m a (ONE n) = Val a.
Proof.
  intros a Ia. destruct one_ne as (N1 & N2 & I1). pose proof nar_ne_0 as N0.
  destruct (takum_cases n a Ia) as [Ea|[Ea|Ra]].
  - rewrite (g_mul_special m Hm) by auto. subst a. apply not_eq_sym in N0. apply Z.eqb_neq in N1, N0. rewrite N1, N0. reflexivity.
  - rewrite (g_mul_special m Hm) by auto. subst a. rewrite Z.eqb_refl. reflexivity.
  - destruct (one_real m Hm) as (R1 & L1 & P1). rewrite (g_mul_code m Hm) by assumption. rewrite L1, Rplus_0_r.
    assert ((ONE n <? 0)%Z = false) as -> by (apply Z.ltb_ge; lia). rewrite xorb_false_r. f_equal. apply code_self; assumption.
Qed.

Lemma g_div_one : forall a, is_intn n a -> g_div m a (ONE n) = Val a.
Proof.
  intros a Ia. destruct one_ne as (N1 & N2 & I1). pose proof nar_ne_0 as N0.
  destruct (takum_cases n a Ia) as [Ea|[Ea|Ra]].
  - rewrite (g_div_special m Hm) by auto. subst a. apply not_eq_sym in N0. apply Z.eqb_neq in N1, N0, N2. rewrite N1, N0, N2. reflexivity.
  - rewrite (g_div_special m Hm) by auto. subst a. rewrite Z.eqb_refl. reflexivity.
  - destruct (one_real m Hm) as (R1 & L1 & P1). rewrite (g_div_code m Hm) by assumption. rewrite L1, Rminus_0_r.
    assert ((ONE n <? 0)%Z = false) as -> by (apply Z.ltb_ge; lia). rewrite xorb_false_r. f_equal. apply code_self; assumption.
Qed.

Lemma code_zero : code m false 0 = ONE n.
Proof.
  destruct (one_real m Hm) as (R1 & L1 & P1). pose proof (code_self m Hm (ONE n) R1) as H.
  rewrite L1 in H. assert ((ONE n <? 0)%Z = false) as E by (apply Z.ltb_ge; lia). rewrite E in H. exact H.
Qed.

Lemma g_div_self : forall a, is_real_takum n a -> g_div m a a = Val (ONE n).
Proof.
  intros a Ra. rewrite (g_div_code m Hm) by assumption. rewrite xorb_nilpotent, Rminus_diag_eq by reflexivity.
  rewrite code_zero. reflexivity.
Qed.

Lemma g_mul_inv : forall a, is_real_takum n a -> g_mul m a (inv_code n a) = Val (ONE n).
Proof.
  intros a Ra. pose proof (mo_range m Hm). destruct (inv_code_facts n a ltac:(lia) Ra) as (R' & S & L).
  rewrite (g_mul_code m Hm) by assumption. rewrite S, L, xorb_nilpotent, Rplus_opp_r. rewrite code_zero. reflexivity.
Qed.

Lemma neg_ltb : forall a, is_real_takum n a -> (- a <? 0)%Z = negb (a <? 0)%Z.
Proof. intros a (_ & N & _). destruct (Z.ltb_spec (- a) 0), (Z.ltb_spec a 0); simpl; try reflexivity; lia. Qed.

Lemma g_mul_neg : forall a b t, is_intn n a -> is_intn n b -> a <> nar n -> b <> nar n ->
  g_mul m a b = Val t -> g_mul m (- a) b = Val (- t)%Z.
Proof.
  intros a b t Ia Ib Na Nb E. pose proof (mo_range m Hm).
  assert (is_intn n (- a)) as Ia' by (unfold is_intn, nar in *; lia).
  assert (- a <> nar n)%Z as Na' by (unfold is_intn, nar in *; lia).
  destruct (takum_cases n a Ia) as [Ea|[Ea|Ra]]; [|contradiction|].
  - rewrite (g_mul_special m Hm) in * by (auto; lia). apply Z.eqb_neq in Na, Nb, Na'. rewrite Na, Nb in E. rewrite Na', Nb.
    injection E as <-. reflexivity.
  - destruct (takum_cases n b Ib) as [Eb|[Eb|Rb]]; [|contradiction|].
    + rewrite (g_mul_special m Hm) in * by (auto; lia). apply Z.eqb_neq in Na, Nb, Na'. rewrite Na, Nb in E. rewrite Na', Nb.
      injection E as <-. reflexivity.
    + rewrite (g_mul_code m Hm) in * by (assumption || apply neg_real; (assumption || lia)).
      injection E as <-. rewrite l_neg, neg_ltb by (assumption || lia). f_equal.
      rewrite <- code_neg by assumption. f_equal. destruct (a <? 0)%Z, (b <? 0)%Z; reflexivity.
Qed.
Lemma g_div_neg : forall a b t, is_intn n a -> is_intn n b -> a <> nar n -> b <> nar n -> b <> 0%Z ->
  g_div m a b = Val t -> g_div m (- a) b = Val (- t)%Z /\ g_div m a (- b) = Val (- t)%Z.
Proof.
  intros a b t Ia Ib Na Nb Zb E. pose proof (mo_range m Hm).
  assert (is_intn n (- a)) as Ia' by (unfold is_intn, nar in *; lia).
  assert (- a <> nar n)%Z as Na' by (unfold is_intn, nar in *; lia).
  assert (is_real_takum n b) as Rb by (split; auto).
  assert (is_real_takum n (- b)) as Rb' by (apply neg_real; (assumption || lia)).
  destruct (takum_cases n a Ia) as [Ea|[Ea|Ra]]; [|contradiction|].
  - destruct Rb' as (Ib' & Zb' & Nb'). rewrite (g_div_special m Hm) in E by auto.
    rewrite !(g_div_special m Hm) by (auto; lia).
    apply Z.eqb_neq in Na, Nb, Zb, Na', Nb', Zb'. rewrite Na, Nb, Zb in E. rewrite Na, Na', Nb, Nb', Zb, Zb'.
    injection E as <-. split; reflexivity.
  - assert (is_real_takum n (- a)) as Ra' by (apply neg_real; (assumption || lia)).
    rewrite (g_div_code m Hm) in * by assumption. rewrite (g_div_code m Hm) by assumption.
    injection E as <-. rewrite !l_neg, !neg_ltb by (assumption || lia). rewrite <- code_neg by assumption.
    split; f_equal; f_equal; destruct (a <? 0)%Z, (b <? 0)%Z; reflexivity.
Qed.

(** monotonicity *)
Lemma ltb_pos : forall a, (0 < a)%Z -> (a <? 0)%Z = false.
Proof. intros a H. apply Z.ltb_ge. lia. Qed.
Lemma ltb_neg : forall a, (a < 0)%Z -> (a <? 0)%Z = true.
Proof. intros a H. apply Z.ltb_lt. lia. Qed.

Lemma l_le_pos : forall a b, is_real_takum n a -> is_real_takum n b -> (0 < a <= b)%Z -> l_ n a <= l_ n b.
Proof.
  intros a b Ra Rb H. pose proof (mo_range m Hm). destruct (Z.eq_dec a b) as [->|]; [lra|]. left.
  apply l_lt_pos; (assumption || lia).
Qed.
Lemma l_le_neg : forall a b, is_real_takum n a -> is_real_takum n b -> (a <= b < 0)%Z -> l_ n b <= l_ n a.
Proof.
  intros a b Ra Rb H. pose proof (mo_range m Hm). destruct (Z.eq_dec a b) as [->|]; [lra|]. left.
  apply l_lt_neg; (assumption || lia).
Qed.

Lemma code_pos : forall L, (0 < code m false L)%Z.
Proof. intros L. pose proof (code_real m Hm false L) as (_ & N & _). pose proof (code_sign m Hm false L) as S. apply Z.ltb_ge in S. lia. Qed.
Lemma code_negative : forall L, (code m true L < 0)%Z.
Proof. intros L. pose proof (code_sign m Hm true L) as S. apply Z.ltb_lt in S. lia. Qed.

(** any operation computing code of an increasing function of l, with the
    sign of the argument, is increasing *)
Lemma code_increasing : forall g : R -> R, (forall x y, x <= y -> g x <= g y) ->
  forall a b, is_real_takum n a -> is_real_takum n b -> (a <= b)%Z ->
  (code m (a <? 0)%Z (g (l_ n a)) <= code m (b <? 0)%Z (g (l_ n b)))%Z.
Proof.
  intros g Hg a b Ra Rb H. pose proof (proj1 (proj2 Ra)). pose proof (proj1 (proj2 Rb)).
  destruct (Z.ltb_spec a 0), (Z.ltb_spec b 0); try lia.
  - apply (code_mono_neg m Hm), Hg, l_le_neg; (assumption || lia).
  - pose proof (code_negative (g (l_ n a))). pose proof (code_pos (g (l_ n b))). lia.
  - apply (code_mono_pos m Hm), Hg, l_le_pos; (assumption || lia).
Qed.

Lemma g_mul_mono : forall a b c u v, is_intn n a -> is_intn n b -> a <> nar n -> b <> nar n ->
  is_real_takum n c -> (0 < c)%Z -> (a <= b)%Z -> g_mul m a c = Val u -> g_mul m b c = Val v -> (u <= v)%Z.
Proof.
  intros a b c u v Ia Ib Na Nb Rc Pc H Ea Eb. pose proof (mo_range m Hm).
  assert (forall x, is_real_takum n x -> g_mul m x c = Val (code m (x <? 0)%Z (l_ n x + l_ n c))) as K.
  { intros x Rx. rewrite (g_mul_code m Hm) by assumption. rewrite (ltb_pos c Pc), xorb_false_r. reflexivity. }
  assert (g_mul m 0 c = Val 0%Z) as K0.
  { rewrite (g_mul_special m Hm); [|unfold is_intn; pose proof (pow2_pos (n - 1) ltac:(lia)); lia|apply Rc|auto].
    destruct Rc as (_ & _ & Nc). pose proof nar_ne_0 as N0. apply not_eq_sym in N0. apply Z.eqb_neq in N0, Nc. rewrite N0, Nc. reflexivity. }
  destruct (takum_cases n a Ia) as [->|[->|Ra]]; [|contradiction|];
  (destruct (takum_cases n b Ib) as [->|[->|Rb]]; [|contradiction|]);
    rewrite ?K0, ?K in * by assumption; injection Ea as <-; injection Eb as <-; try lia.
  - rewrite (ltb_pos b) by (destruct Rb as (_ & ? & _); lia).
    pose proof (code_pos (l_ n b + l_ n c)). lia.
  - rewrite (ltb_neg a) by (destruct Ra as (_ & ? & _); lia).
    pose proof (code_negative (l_ n a + l_ n c)). lia.
  - apply (code_increasing (fun x => x + l_ n c)); try assumption. intros; lra.
Qed.

Lemma g_div_mono : forall a b c u v, is_intn n a -> is_intn n b -> a <> nar n -> b <> nar n ->
  is_real_takum n c -> (0 < c)%Z -> (a <= b)%Z -> g_div m a c = Val u -> g_div m b c = Val v -> (u <= v)%Z.
Proof.
  intros a b c u v Ia Ib Na Nb Rc Pc H Ea Eb. pose proof (mo_range m Hm).
  assert (forall x, is_real_takum n x -> g_div m x c = Val (code m (x <? 0)%Z (l_ n x - l_ n c))) as K.
  { intros x Rx. rewrite (g_div_code m Hm) by assumption. rewrite (ltb_pos c Pc), xorb_false_r. reflexivity. }
  assert (g_div m 0 c = Val 0%Z) as K0.
  { rewrite (g_div_special m Hm); [|unfold is_intn; pose proof (pow2_pos (n - 1) ltac:(lia)); lia|apply Rc|auto].
    destruct Rc as (_ & Zc & Nc). pose proof nar_ne_0 as N0. apply not_eq_sym in N0. apply Z.eqb_neq in N0, Nc, Zc. rewrite N0, Nc, Zc. reflexivity. }
  destruct (takum_cases n a Ia) as [->|[->|Ra]]; [|contradiction|];
  (destruct (takum_cases n b Ib) as [->|[->|Rb]]; [|contradiction|]);
    rewrite ?K0, ?K in * by assumption; injection Ea as <-; injection Eb as <-; try lia.
  - rewrite (ltb_pos b) by (destruct Rb as (_ & ? & _); lia).
    pose proof (code_pos (l_ n b - l_ n c)). lia.
  - rewrite (ltb_neg a) by (destruct Ra as (_ & ? & _); lia).
    pose proof (code_negative (l_ n a - l_ n c)). lia.
  - apply (code_increasing (fun x => x - l_ n c)); try assumption. intros; lra.
Qed.

Lemma g_root_mono : forall a b e u v, is_real_takum n a -> is_real_takum n b -> is_int64 e ->
  (0 < e)%Z -> Z.odd e = true -> (a <= b)%Z -> g_root m a e = Val u -> g_root m b e = Val v -> (u <= v)%Z.
Proof.
  intros a b e u v Ra Rb He Pe Oe H Ea Eb. pose proof (mrange m Hm).
  assert (forall t, is_real_takum n t -> root_nar t e = false) as K.
  { intros t (_ & Z0 & _). unfold root_nar. pose proof (rem_odd e) as Or. rewrite Oe in Or. apply negb_true_iff in Or.
    rewrite Or, andb_false_r. apply Z.eqb_neq in Z0. rewrite Z0. destruct (Z.eqb_spec e 0); [lia|reflexivity]. }
  rewrite (g_root_real m Hm) in Ea, Eb by auto. injection Ea as <-. injection Eb as <-.
  pose proof (proj1 (proj2 Ra)). pose proof (proj1 (proj2 Rb)).
  assert (0 < RF (m_F m) (IZR e)) as Hpos by (apply RF_int_pos; assumption).
  assert (forall x y, x <= y -> RF (m_F m) (x / RF (m_F m) (IZR e)) <= RF (m_F m) (y / RF (m_F m) (IZR e))) as HM.
  { intros x y Hxy. apply RF_mono. apply Rmult_le_compat_r; [left; apply Rinv_0_lt_compat; assumption|assumption]. }
  pose proof (fun x => enc_range n ltac:(lia) x) as ER.
  destruct (Z.ltb_spec a 0), (Z.ltb_spec b 0); try lia; unfold asm.
  - assert (l_ n b <= l_ n a) as Hl by (apply l_le_neg; (assumption || lia)).
    apply Z.sub_le_mono_r. apply enc_mono; [lia|]. apply (mo_psi_mono m Hm). specialize (HM _ _ Hl). unfold sg. lra.
  - pose proof (ER (m_psi m (sg true * RF (m_F m) (l_ n a / RF (m_F m) (IZR e))))).
    pose proof (ER (m_psi m (sg false * RF (m_F m) (l_ n b / RF (m_F m) (IZR e))))). lia.
  - assert (l_ n a <= l_ n b) as Hl by (apply l_le_pos; (assumption || lia)).
    apply enc_mono; [lia|]. apply (mo_psi_mono m Hm). specialize (HM _ _ Hl). unfold sg. lra.
Qed.

Lemma root_2_sqrt : forall t, is_intn n t -> g_root m t 2 = g_sqrt m t.
Proof.
  intros t It. pose proof (mo_range m Hm). pose proof (mo_P m Hm).
  destruct (Z_lt_le_dec t 0) as [C|C].
  { unfold g_root, g_sqrt, root_nar. rewrite (proj2 (Z.ltb_lt _ _) C). reflexivity. }
  destruct (Z.eq_dec t 0) as [->|Z0].
  { unfold g_root, g_sqrt. change (root_nar 0 2) with false. change (0 <? 0)%Z with false. cbv iota.
    rewrite (mo_dec0 m Hm). cbv beta iota delta [bind].
    rewrite (fdiv_ninf_pos _ _ (IZR 2)); [reflexivity| |lra].
    apply isf_fint. pose proof (fmt_pos (m_F m)). change (Z.abs 2) with (2 ^ 1)%Z. apply Z.pow_le_mono_r; lia. }
  assert (is_real_takum n t) as R.
  { split; [assumption|]. split; [assumption|]. unfold nar. pose proof (pow2_pos (n - 1) ltac:(lia)). lia. }
  rewrite (g_sqrt_real m Hm) by (assumption || lia).
  rewrite (g_root_real m Hm); [|assumption|unfold is_int64; lia|].
  - rewrite ltb_pos by lia. f_equal. f_equal. f_equal.
    rewrite (RF_id _ (IZR 2)).
    + destruct (half_facts m Hm t R) as (HF & k & Ek). rewrite RF_id by assumption. rewrite Ek.
      unfold sg. rewrite Rmult_1_l. apply (psi_dyadic m Hm). lia.
    + apply FF_IZR. pose proof (fmt_pos (m_F m)). change (Z.abs 2) with (2 ^ 1)%Z. apply Z.pow_le_mono_r; lia.
  - unfold root_nar. rewrite ltb_pos by lia. apply Z.eqb_neq in Z0. rewrite Z0. reflexivity.
Qed.

Lemma root_unit : forall t e, e = 1%Z \/ e = (-1)%Z -> is_real_takum n t ->
  g_root m t e = Val (if (e =? 1)%Z then t else inv_code n t).
Proof.
  intros t e He R. pose proof (mo_range m Hm). pose proof (mo_P m Hm). pose proof (proj1 (proj2 R)) as Z0.
  rewrite (g_root_real m Hm); [|assumption|unfold is_int64; lia|].
  2:{ unfold root_nar. apply Z.eqb_neq in Z0. rewrite Z0. destruct He as [-> | ->]; simpl; destruct (t <? 0)%Z; reflexivity. }
  assert (FF (m_F m) (IZR e)) as FE.
  { apply FF_IZR. pose proof (fmt_pos (m_F m)). replace (Z.abs e) with (2 ^ 0)%Z by (destruct He; subst; reflexivity).
    apply Z.pow_le_mono_r; lia. }
  rewrite (RF_id _ (IZR e)) by assumption.
  destruct (l_dyadic n t ltac:(lia) R) as [k Ek].
  assert (forall u, is_real_takum n u -> (u <? 0)%Z = (t <? 0)%Z -> l_ n u = l_ n t / IZR e ->
    asm n (t <? 0)%Z (enc n (m_psi m (sg (t <? 0)%Z * RF (m_F m) (l_ n t / IZR e)))) = u) as K.
  { intros u Ru Su Lu. rewrite <- Lu, <- Su. rewrite RF_id by (apply FF_l; assumption).
    rewrite (l_sg_cpm n u) by (assumption || lia). rewrite <- Rmult_assoc, sg_sq, Rmult_1_l.
    pose proof (real_low_pos n u ltac:(lia) Ru). rewrite (mo_psi_grid m Hm) by lia.
    rewrite enc_cpm by (assumption || lia). apply asm_low; [lia|apply Ru]. }
  f_equal. destruct He as [-> | ->]; simpl Z.eqb; cbv iota; apply K.
  - assumption.
  - reflexivity.
  - field.
  - apply (inv_code_facts n t ltac:(lia) R).
  - apply (inv_code_facts n t ltac:(lia) R).
  - rewrite (proj2 (proj2 (inv_code_facts n t ltac:(lia) R))). field.
Qed.
End M2.

(** ** Statements for the API *)
Lemma log_div_mach : forall n f g, log_multiplication n f -> log_division n g ->
  exists m, mach_ok m /\ m_n m = n /\ (forall a b, f a b = g_mul m a b) /\ (forall a b, g a b = g_div m a b).
Proof.
  intros n f g [] Hg; inversion Hg; subst.
  - exists mach8. split; [apply mach8_ok|]. repeat split.
  - exists mach16. split; [apply mach16_ok|]. repeat split.
  - exists mach32. split; [apply mach32_ok|]. repeat split.
  - exists mach64. split; [apply mach64_ok|]. repeat split.
Qed.

Lemma mul_comm : forall n f a b, log_multiplication n f -> is_intn n a -> is_intn n b -> f a b = f b a.
Proof. intros n f a b H Ia Ib. apply log_multiplication_inv in H as (m & Hm & <- & Hf & _). rewrite !Hf. apply g_mul_comm; assumption. Qed.

Lemma mul_one : forall n f a, log_multiplication n f -> is_intn n a -> f a (2 ^ (n - 2))%Z = Val a.
Proof. intros n f a H Ia. apply log_multiplication_inv in H as (m & Hm & <- & Hf & _). rewrite !Hf. apply (g_mul_one m Hm a Ia). Qed.

Lemma mul_neg : forall n f a b t, log_multiplication n f -> is_intn n a -> is_intn n b -> a <> nar n -> b <> nar n ->
  f a b = Val t -> f (- a)%Z b = Val (- t)%Z.
Proof. intros n f a b t H. apply log_multiplication_inv in H as (m & Hm & <- & Hf & _). rewrite !Hf. apply (g_mul_neg m Hm). Qed.

Lemma div_neg : forall n f a b t, log_division n f -> is_intn n a -> is_intn n b -> a <> nar n -> b <> nar n -> b <> 0%Z ->
  f a b = Val t -> f (- a)%Z b = Val (- t)%Z /\ f a (- b)%Z = Val (- t)%Z.
Proof. intros n f a b t H. apply log_division_inv in H as (m & Hm & <- & Hf & _). rewrite !Hf. apply (g_div_neg m Hm). Qed.

Lemma div_one : forall n f a, log_division n f -> is_intn n a -> f a (2 ^ (n - 2))%Z = Val a.
Proof. intros n f a H Ia. apply log_division_inv in H as (m & Hm & <- & Hf & _). rewrite !Hf. apply (g_div_one m Hm a Ia). Qed.

Lemma div_self : forall n f a, log_division n f -> is_real_takum n a -> f a a = Val (2 ^ (n - 2))%Z.
Proof. intros n f a H Ia. apply log_division_inv in H as (m & Hm & <- & Hf & _). rewrite !Hf. apply (g_div_self m Hm a Ia). Qed.

Lemma mul_inverse : forall n f g a, log_multiplication n f -> log_inversion n g -> is_real_takum n a ->
  exists b, g a = Val b /\ f a b = Val (2 ^ (n - 2))%Z.
Proof.
  intros n f g a H Hg Ra. apply log_multiplication_inv in H as (m & Hm & <- & Hf & _).
  apply log_inversion_inv in Hg as [-> Hn]. rewrite inversion_real by (assumption || lia).
  eexists. split; [reflexivity|]. rewrite Hf. apply (g_mul_inv m Hm a Ra).
Qed.

Lemma div_is_mul_inverse : forall n f g h a b, log_multiplication n f -> log_division n g -> log_inversion n h ->
  is_intn n a -> is_real_takum n b -> exists c, h b = Val c /\ g a b = f a c.
Proof.
  intros n f g h a b Hf Hg Hh Ia Rb. destruct (log_div_mach n f g Hf Hg) as (m & Hm & <- & Ef & Eg).
  apply log_inversion_inv in Hh as [-> Hn]. rewrite inversion_real by (assumption || lia).
  eexists. split; [reflexivity|]. rewrite Ef, Eg. destruct (inv_code_facts (m_n m) b ltac:(lia) Rb) as (R' & S & L).
  destruct (takum_cases (m_n m) a Ia) as [Ea|[Ea|Ra]].
  - rewrite (g_div_special m Hm), (g_mul_special m Hm) by (auto; apply Rb || apply R').
    destruct Rb as (_ & Zb & Nb), R' as (_ & Zc & Nc). apply Z.eqb_neq in Zb, Nb, Zc, Nc. rewrite Zb, Nb, Nc, orb_false_r. reflexivity.
  - rewrite (g_div_special m Hm), (g_mul_special m Hm) by (auto; apply Rb || apply R'). subst a. rewrite Z.eqb_refl. reflexivity.
  - rewrite (g_div_code m Hm), (g_mul_code m Hm) by assumption. rewrite S, L. reflexivity.
Qed.

Lemma mul_mono : forall n f a b c u v, log_multiplication n f -> is_intn n a -> is_intn n b -> a <> nar n -> b <> nar n ->
  is_real_takum n c -> (0 < c)%Z -> (a <= b)%Z -> f a c = Val u -> f b c = Val v -> (u <= v)%Z.
Proof. intros n f a b c u v H. apply log_multiplication_inv in H as (m & Hm & <- & Hf & _). rewrite !Hf. apply (g_mul_mono m Hm). Qed.
Lemma div_mono : forall n f a b c u v, log_division n f -> is_intn n a -> is_intn n b -> a <> nar n -> b <> nar n ->
  is_real_takum n c -> (0 < c)%Z -> (a <= b)%Z -> f a c = Val u -> f b c = Val v -> (u <= v)%Z.
Proof. intros n f a b c u v H. apply log_division_inv in H as (m & Hm & <- & Hf & _). rewrite !Hf. apply (g_div_mono m Hm). Qed.
Lemma root_mono : forall n f a b e u v, log_root n f -> is_real_takum n a -> is_real_takum n b -> is_int64 e ->
  (0 < e)%Z -> Z.odd e = true -> (a <= b)%Z -> f a e = Val u -> f b e = Val v -> (u <= v)%Z.
Proof. intros n f a b e u v H. apply log_root_inv in H as (m & Hm & <- & Hf & _). rewrite !Hf. apply (g_root_mono m Hm). Qed.

Lemma nearest_code : forall n s L t, (6 <= n <= 64)%Z -> nearest n s L t -> t = asm n s (enc n (sg s * L)).
Proof. intros n s L t Hn H. apply (nearest_unique n Hn s L); [assumption|]. apply enc_nearest_sg. assumption. Qed.

(** rounding is monotone *)
Lemma coord_le : forall k x y, 0 < x <= y -> coord k x <= coord k y.
Proof.
  intros k x y H. destruct (Rle_or_lt (coord k x) (coord k y)) as [C|C]; [assumption|].
  apply (E_lt k) in C. rewrite !E_coord in C by lra. rewrite !Rabs_pos_eq in C by lra. lra.
Qed.

Lemma rounds_mono : forall k n x y t u, (6 <= n <= 64)%Z -> rounds k n x t -> rounds k n y u -> x <= y -> (t <= u)%Z.
Proof.
  intros k n x y t u Hn [[-> ->]|[Nx Hx]] [[-> ->]|[Ny Hy]] H.
  - lia.
  - rewrite Rlt_bool_false in Hy by lra. destruct Hy as (_ & S & _). unfold has_sign in S. lia.
  - rewrite Rlt_bool_true in Hx by lra. destruct Hx as (_ & S & _). unfold has_sign in S. lia.
  - destruct (Rlt_bool_spec x 0) as [Cx|Cx], (Rlt_bool_spec y 0) as [Cy|Cy].
    + assert (coord k y <= coord k x) as C.
      { rewrite <- (coord_opp k x), <- (coord_opp k y). apply coord_le. lra. }
      apply nearest_code in Hx, Hy; try assumption. subst t u. unfold asm. apply Z.sub_le_mono_r. apply enc_mono; [assumption|].
      unfold sg. lra.
    + destruct Hx as (_ & S & _), Hy as (_ & S' & _). unfold has_sign in *. lia.
    + lra.
    + assert (coord k x <= coord k y) as C by (apply coord_le; lra).
      apply nearest_code in Hx, Hy; try assumption. subst t u. unfold asm. apply enc_mono; [assumption|]. unfold sg. lra.
Qed.

Lemma std_log_sqrt : forall n f, log_square_root n f -> std_width n.
Proof. intros n f []; unfold std_width; auto. Qed.
Lemma std_log_pow : forall n f, log_integer_power n f -> std_width n.
Proof. intros n f []; unfold std_width; auto. Qed.
Lemma std_log_root : forall n f, log_root n f -> std_width n.
Proof. intros n f []; unfold std_width; auto. Qed.

Lemma sqrt_mono : forall n f a b u v, log_square_root n f -> is_intn n b -> (0 <= a <= b)%Z ->
  f a = Val u -> f b = Val v -> (u <= v)%Z.
Proof.
  intros n f a b u v H Ib Hab Ea Eb. pose proof (std_range n (std_log_sqrt n f H)) as Hn.
  pose proof (pow2_pos (n - 1) ltac:(lia)).
  assert (is_intn n a) as Ia by (unfold is_intn in *; lia).
  destruct (sqrt_correct n f a H Ia) as (u' & Ea' & _ & Va). destruct (sqrt_correct n f b H Ib) as (v' & Eb' & _ & Vb).
  rewrite Ea in Ea'. injection Ea' as <-. rewrite Eb in Eb'. injection Eb' as <-.
  assert (forall t, is_intn n t -> (0 <= t)%Z -> exists x, value Logarithmic n t = Some x /\ 0 <= x) as P.
  { intros t It Pt. destruct (takum_cases n t It) as [->|[->|R]].
    - exists 0. rewrite value_0. split; [reflexivity|lra].
    - unfold nar in Pt. lia.
    - rewrite value_log_real by assumption. eexists. split; [reflexivity|]. destruct (Z.ltb_spec t 0); [lia|].
      unfold sg. pose proof (exp_pos (l_ n t / 2)). lra. }
  destruct (P a Ia ltac:(lia)) as (x & Ex & Px). destruct (P b Ib ltac:(lia)) as (y & Ey & Py).
  rewrite Ex in Va. rewrite Ey in Vb. destruct Va as [[? _]|[_ Va]]; [lra|]. destruct Vb as [[? _]|[_ Vb]]; [lra|].
  apply (rounds_mono Logarithmic n (sqrt x) (sqrt y)); try assumption; [lia|]. apply sqrt_le_1_alt.
  destruct (Z.eq_dec a b) as [->|N]; [rewrite Ex in Ey; injection Ey as ->; lra|].
  left. apply (value_lt n ltac:(lia) Logarithmic a b); (assumption || lia).
Qed.

Lemma powerRZ_odd_mono : forall e x y, (0 < e)%Z -> Z.odd e = true -> x <= y -> powerRZ x e <= powerRZ y e.
Proof.
  assert (forall e x y, (0 < e)%Z -> 0 <= x <= y -> 0 <= powerRZ x e <= powerRZ y e) as P.
  { intros e x y He H. destruct e as [|p|p]; try lia. simpl. split; [apply pow_le; lra|apply pow_incr; lra]. }
  assert (forall e x, Z.odd e = true -> powerRZ (- x) e = - powerRZ x e) as O.
  { intros e x He. replace (- x) with (-1 * x) by ring. rewrite powerRZ_mult, powerRZ_m1, He. unfold sg. ring. }
  intros e x y He Ho H. destruct (Rle_or_lt 0 x) as [C|C]; [apply P; [assumption|lra]|].
  destruct (Rle_or_lt 0 y) as [D|D].
  - pose proof (P e 0 y He ltac:(lra)). pose proof (P e 0 (- x) He ltac:(lra)) as Q. rewrite O in Q by assumption.
    pose proof (P e 0 0 He ltac:(lra)). assert (powerRZ 0 e = 0) by (destruct e; try lia; simpl; apply pow_i; lia). lra.
  - pose proof (P e (- y) (- x) He ltac:(lra)) as Q. rewrite !O in Q by assumption. lra.
Qed.

Lemma pow_mono : forall n f a b e u v, log_integer_power n f -> is_intn n a -> is_intn n b -> a <> nar n -> b <> nar n ->
  is_int64 e -> (0 < e)%Z -> Z.odd e = true -> (a <= b)%Z -> f a e = Val u -> f b e = Val v -> (u <= v)%Z.
Proof.
  intros n f a b e u v H Ia Ib Na Nb He Pe Oe Hab Ea Eb. pose proof (std_range n (std_log_pow n f H)) as Hn.
  destruct (pow_correct n f a e H Ia He) as (u' & Ea' & _ & Va). destruct (pow_correct n f b e H Ib He) as (v' & Eb' & _ & Vb).
  rewrite Ea in Ea'. injection Ea' as <-. rewrite Eb in Eb'. injection Eb' as <-.
  destruct (value Logarithmic n a) as [x|] eqn:Ex; [|exfalso; revert Ex; apply value_some; (assumption || lia)].
  destruct (value Logarithmic n b) as [y|] eqn:Ey; [|exfalso; revert Ey; apply value_some; (assumption || lia)].
  destruct Va as [(_ & ? & _)|[_ Va]]; [lia|]. destruct Vb as [(_ & ? & _)|[_ Vb]]; [lia|].
  apply (rounds_mono Logarithmic n (powerRZ x e) (powerRZ y e)); try assumption; [lia|].
  apply powerRZ_odd_mono; try assumption.
  destruct (Z.eq_dec a b) as [->|N]; [rewrite Ex in Ey; injection Ey as ->; lra|].
  left. apply (value_lt n ltac:(lia) Logarithmic a b); (assumption || lia).
Qed.

(** ** Power identities *)
Lemma rounds_self : forall k n t x, (8 <= n <= 64)%Z -> is_intn n t -> value k n t = Some x -> rounds k n x t.
Proof.
  intros k n t x Hn It V. destruct (takum_cases n t It) as [->|[->|R]].
  - rewrite value_0 in V. injection V as <-. left. auto.
  - rewrite value_nar in V by lia. discriminate.
  - rewrite value_real in V by (assumption || lia). injection V as <-. apply rounds_sg. apply nearest_self; (assumption || lia).
Qed.

Lemma value_one : forall n, std_width n -> value Logarithmic n (2 ^ (n - 2)) = Some 1 /\ is_intn n (2 ^ (n - 2)).
Proof.
  intros n Hn.
  assert (exists m, mach_ok m /\ m_n m = n) as (m & Hm & <-).
  { destruct Hn as [-> |[-> |[-> | ->]]]; [exists mach8|exists mach16|exists mach32|exists mach64]; split; try reflexivity;
      [apply mach8_ok|apply mach16_ok|apply mach32_ok|apply mach64_ok]. }
  destruct (one_real m Hm) as (R & L & P). split; [|apply R]. fold (ONE (m_n m)).
  rewrite value_log_real by (assumption || apply (mo_range m Hm)). rewrite L, (ltb_pos _ P). unfold sg.
  f_equal. unfold Rdiv. rewrite Rmult_0_l, exp_0. ring.
Qed.

Lemma pow_real : forall n f t e x, log_integer_power n f -> is_real_takum n t -> is_int64 e ->
  value Logarithmic n t = Some x -> x <> 0 /\ exists u, f t e = Val u /\ is_intn n u /\ rounds Logarithmic n (powerRZ x e) u.
Proof.
  intros n f t e x H R He V. pose proof (std_range n (std_log_pow n f H)) as Hn.
  assert (x <> 0) as Hx.
  { rewrite value_log_real in V by assumption. injection V as <-. pose proof (exp_pos (l_ n t / 2)). unfold sg. destruct (t <? 0)%Z; lra. }
  split; [assumption|]. destruct (pow_correct n f t e H (proj1 R) He) as (u & E & Iu & W). rewrite V in W. exists u.
  destruct W as [(? & _)|[_ W]]; [contradiction|]. auto.
Qed.

Lemma pow_identities : forall n f g h t, log_integer_power n f -> log_inversion n g -> log_multiplication n h ->
  is_real_takum n t ->
  f t 1%Z = Val t /\ f t 0%Z = Val (2 ^ (n - 2))%Z /\ f t (-1)%Z = g t /\ f t 2%Z = h t t.
Proof.
  intros n f g h t H Hg Hh R. pose proof (std_log_pow n f H) as Hs. pose proof (std_range n Hs) as Hn.
  assert (exists x, value Logarithmic n t = Some x) as [x V] by (rewrite value_log_real by assumption; eauto).
  assert (forall e u x', is_int64 e -> is_intn n u -> value Logarithmic n u = Some x' -> powerRZ x e = x' -> f t e = Val u) as K.
  { intros e u x' He Iu Vu Ex. destruct (pow_real n f t e x H R He V) as (_ & u' & E & _ & W). rewrite E. f_equal.
    rewrite Ex in W. apply (rounds_unique Logarithmic n x'); [lia|assumption|]. apply rounds_self; (assumption || lia). }
  destruct (value_one n Hs) as [V1 I1].
  split; [apply (K 1%Z t x); [unfold is_int64; lia|apply R|assumption|simpl; ring]|].
  split; [apply (K 0%Z _ 1); [unfold is_int64; lia|assumption|assumption|reflexivity]|].
  split.
  - destruct (inversion_lossless n g t Hg (proj1 R)) as (u & E & Iu & W). rewrite V in W.
    destruct (pow_real n f t (-1) x H R ltac:(unfold is_int64; lia) V) as (Hx & _).
    destruct W as [(? & _)|[_ W]]; [contradiction|]. rewrite E. apply (K _ u (/ x)); [unfold is_int64; lia|assumption|assumption|].
    simpl. rewrite Rmult_1_r. reflexivity.
  - destruct (pow_real n f t 2 x H R ltac:(unfold is_int64; lia) V) as (Hx & u & E & _ & W). rewrite E.
    assert (n <> 64%Z) as N64 by (destruct H; discriminate).
    destruct (mul_correct n h t t Hh N64 (proj1 R) (proj1 R)) as (v & E' & _ & W'). rewrite V in W'. rewrite E'. f_equal.
    apply (rounds_unique Logarithmic n (x * x)); [lia| |assumption]. replace (x * x) with (powerRZ x 2) by (simpl; ring). assumption.
Qed.

Lemma root_identities : forall n f g h t, log_root n f -> log_inversion n g -> log_square_root n h ->
  (is_intn n t -> f t 2%Z = h t) /\
  (is_real_takum n t -> f t 1%Z = Val t /\ f t (-1)%Z = g t).
Proof.
  intros n f g h t H Hg Hh. apply log_inversion_inv in Hg as [-> Hn].
  assert (exists m, mach_ok m /\ m_n m = n /\ (forall a b, f a b = g_root m a b) /\ (forall a, h a = g_sqrt m a)) as (m & Hm & <- & Ef & Eh).
  { destruct H; inversion Hh; subst; [exists mach8|exists mach16|exists mach32|exists mach64]; (split; [|split; [reflexivity|split; reflexivity]]);
      [apply mach8_ok|apply mach16_ok|apply mach32_ok|apply mach64_ok]. }
  rewrite !Ef, !Eh. split; [apply (root_2_sqrt m Hm)|]. intros R. rewrite !(root_unit m Hm) by auto.
  split; [reflexivity|]. rewrite inversion_real by (assumption || lia). reflexivity.
Qed.
