(** Properties of absolute, sign and precision; rounding errors of takum64
    multiplication and division: proofs of the theorems of PropLog.v. *)
From Coq Require Import ZArith Reals Bool Lia Lra List.
From Flocq Require Import Core.Core IEEE754.BinarySingleNaN.
From Flocq Require Relative.
From Verif Require Import CModel FloatModel WidthConv Codec Spec CodeFacts SpecFacts ValueFacts RoundFacts
  WidthFacts WidthProps FloatFacts DecodeFacts EncodeFacts PhiFacts Codec8Facts Arith LogApi Machine LogFacts PowFacts LogProps.
Local Open Scope R_scope.

(** ** Absolute value *)
Lemma absolute_eq : forall n t, (8 <= n <= 64)%Z -> is_intn n t -> (t <> nar n \/ (n < 32)%Z) ->
  absolute n t = Val (to_s n (Z.abs t)).
Proof.
  intros n t Hn It HN. unfold absolute, nar, is_intn in *.
  assert (2 ^ (n - 1) <= 2 ^ (Z.max 32 n - 1))%Z as H1 by (apply Z.pow_le_mono_r; lia).
  pose proof (pow2_pos (n - 1) ltac:(lia)) as H0.
  assert (- t < 2 ^ (Z.max 32 n - 1))%Z as H2.
  { destruct HN as [HN|HN]; [lia|]. assert (2 ^ (n - 1) < 2 ^ (Z.max 32 n - 1))%Z by (apply Z.pow_lt_mono_r; lia). lia. }
  assert (forall z, (- 2 ^ (Z.max 32 n - 1) <= z < 2 ^ (Z.max 32 n - 1))%Z -> s_arith (Z.max 32 n) z = Val z) as K.
  { intros z Hz. unfold s_arith, guard, fits_s. destruct (Z.leb_spec (- 2 ^ (Z.max 32 n - 1)) z), (Z.ltb_spec z (2 ^ (Z.max 32 n - 1))); try lia. reflexivity. }
  cbv zeta. rewrite K by lia. cbv beta iota delta [bind].
  destruct (Z.ltb_spec t 0), (Z.leb_spec 0 t); try lia; cbn [b2z]; rewrite ?Z.mul_0_l, ?Z.mul_1_l; rewrite !K by lia;
    repeat f_equal; lia.
Qed.

Lemma value_pos : forall k n t x, (8 <= n <= 64)%Z -> is_intn n t -> value k n t = Some x ->
  ((0 < t)%Z <-> 0 < x) /\ (t = 0%Z <-> x = 0) /\ ((t < 0)%Z <-> x < 0).
Proof.
  intros k n t x Hn It V. destruct (takum_cases n t It) as [->|[->|R]].
  - rewrite value_0 in V. injection V as <-. split; [|split]; split; intros; (lia || lra).
  - rewrite value_nar in V by lia. discriminate.
  - rewrite value_real in V by (assumption || lia). injection V as <-. pose proof (proj1 (proj2 R)).
    assert (0 < E k (l_ n t)) by apply E_pos. destruct (Z.ltb_spec t 0); split; [|split| |split]; split; intros; (lia || lra).
Qed.

Lemma absolute_correct : forall k n f t x, absolute_value k n f -> is_intn n t -> value k n t = Some x ->
  exists u, f t = Val u /\ is_intn n u /\ value k n u = Some (Rabs x).
Proof.
  intros k n f t x H It V.
  assert ((8 <= n <= 64)%Z /\ f = absolute n) as [Hn ->] by (destruct H; split; (lia || reflexivity)).
  assert (t <> nar n) as NN by (intros ->; rewrite value_nar in V by lia; discriminate).
  assert (is_intn n (Z.abs t)) as IA by (unfold is_intn, nar in *; lia).
  rewrite absolute_eq by auto. exists (Z.abs t). rewrite (to_s_eq n (Z.abs t) 0 (Z.abs t)) by (assumption || lia). split; [reflexivity|]. split; [assumption|].
  destruct (value_pos k n t x Hn It V) as (P1 & P2 & P3). destruct (Z_lt_le_dec t 0) as [C|C].
  - rewrite Z.abs_neq by lia. rewrite (value_neg n ltac:(lia) k t x It V). rewrite Rabs_left; [reflexivity|]. apply P3. assumption.
  - rewrite Z.abs_eq by lia. rewrite V, Rabs_pos_eq; [reflexivity|]. destruct (Z.eq_dec t 0) as [E0|E0]; [right; symmetry; apply P2; assumption|left; apply P1; lia].
Qed.

Lemma absolute_nar : forall k n f, absolute_value k n f -> (n < 32)%Z -> f (nar n) = Val (nar n).
Proof. intros k n f [] H; try lia; reflexivity. Qed.
Lemma absolute_nar_ub : forall k n f, absolute_value k n f -> (32 <= n)%Z -> f (nar n) = UB.
Proof. intros k n f [] H; try lia; reflexivity. Qed.

(** ** Sign *)
Lemma value_one_k : forall k n, std_width n -> value k n (2 ^ (n - 2)) = Some 1 /\ is_intn n (2 ^ (n - 2)).
Proof.
  intros k n Hn.
  assert (exists m, mach_ok m /\ m_n m = n) as (m & Hm & <-).
  { destruct Hn as [-> |[-> |[-> | ->]]]; [exists mach8|exists mach16|exists mach32|exists mach64]; split; try reflexivity;
      [apply mach8_ok|apply mach16_ok|apply mach32_ok|apply mach64_ok]. }
  pose proof (mo_range m Hm).
  destruct (one_real m Hm) as (R & L & P). split; [|apply R]. fold (ONE (m_n m)).
  rewrite value_real by (assumption || lia). rewrite L. destruct (Z.ltb_spec (ONE (m_n m)) 0); [lia|].
  rewrite Rmult_1_l. f_equal. destruct k; unfold E, Lin.
  - unfold Rdiv. rewrite Rmult_0_l. apply exp_0.
  - rewrite Zfloor_IZR. simpl. ring.
Qed.

Lemma sign_correct : forall k n f t, sign_function k n f -> is_intn n t ->
  exists u, f t = Val u /\ is_intn n u /\
  match value k n t with
  | None => u = nar n
  | Some x => (x < 0 /\ value k n u = Some (-1)) \/ (x = 0 /\ value k n u = Some 0) \/ (0 < x /\ value k n u = Some 1)
  end.
Proof.
  intros k n f t H It.
  assert (std_width n /\ f = sign n) as [Hs ->] by (destruct H; split; unfold std_width; auto).
  pose proof (std_range n Hs) as Hn. destruct (value_one_k k n Hs) as [V1 I1]. unfold sign, NaR. fold (nar n).
  destruct (Z.eqb_spec t (nar n)) as [->|NN].
  { eexists. split; [reflexivity|]. split; [assumption|]. rewrite value_nar by lia. reflexivity. }
  destruct (value k n t) as [x|] eqn:V; [|exfalso; revert V; apply value_some; (assumption || lia)].
  destruct (value_pos k n t x Hn It V) as (P1 & P2 & P3). unfold ONE.
  destruct (Z.ltb_spec t 0) as [C|C].
  { eexists. split; [reflexivity|]. split.
    - unfold is_intn in *. pose proof (pow2_pos (n - 2) ltac:(lia)). lia.
    - left. split; [apply P3; assumption|]. rewrite (value_neg n ltac:(lia) k _ 1 I1 V1). reflexivity. }
  destruct (Z.ltb_spec 0 t) as [D|D]; eexists; (split; [reflexivity|]).
  - split; [assumption|]. right; right. split; [apply P1; assumption|assumption].
  - split; [unfold is_intn; pose proof (pow2_pos (n - 1) ltac:(lia)); lia|]. right; left. split; [apply P2; lia|apply value_0].
Qed.

(** ** Precision *)
Lemma div_mod_mul : forall a b c, (0 < b)%Z -> (0 < c)%Z -> ((a mod (b * c)) / b = (a / b) mod c)%Z.
Proof. intros a b c Hb Hc. rewrite Z.rem_mul_r by lia. rewrite Z.mul_comm, Z.div_add by lia. rewrite Z.mod_div by lia. lia. Qed.

Lemma DR_extract : forall n t, (8 <= n <= 64)%Z -> (Z.land (to_u n t) (15 * 2 ^ (n - 5)) / 2 ^ (n - 5) = DRn n t)%Z.
Proof.
  intros n t Hn. unfold DRn, to_u, low. rewrite <- Z.shiftr_div_pow2 by lia. rewrite Z.shiftr_land.
  rewrite (Z.shiftr_div_pow2 (15 * _)) by lia. rewrite Z.div_mul by (pose proof (pow2_pos (n - 5) ltac:(lia)); lia).
  change 15%Z with (Z.ones 4). rewrite Z.land_ones, Z.shiftr_div_pow2 by lia.
  pose proof (pow2_pos (n - 5) ltac:(lia)).
  replace (2 ^ n)%Z with (2 ^ (n - 5) * 2 ^ 5)%Z by (rewrite <- pow2_split by lia; f_equal; lia).
  replace (2 ^ (n - 1))%Z with (2 ^ (n - 5) * 2 ^ 4)%Z by (rewrite <- pow2_split by lia; f_equal; lia).
  rewrite !div_mod_mul by lia. change (2 ^ 5)%Z with (2 ^ 4 * 2)%Z.
  rewrite Z.rem_mul_r by lia. rewrite Z.mul_comm, Z.mod_add by lia. apply Z.mod_mod. lia.
Qed.

Lemma lookup_precision : forall DR, (0 <= DR < 16)%Z -> lookup precision_p_lut DR = Val (11 - regZ DR)%Z.
Proof. exact lookup_p. Qed.

Lemma precision_correct : forall k n f t, precision_function k n f -> is_real_takum n t ->
  f t = Val (Z.max 0 (n - 5 - r_ n t)).
Proof.
  intros k n f t H R. pose proof R as (It & Z0 & NN). apply Z.eqb_neq in Z0, NN. unfold nar in NN.
  assert (8 <= n <= 64)%Z as Hn by (destruct H; lia).
  assert (0 <= DRn n t < 16)%Z as KD by (apply DRn_bounds; lia).
  pose proof (regZ_bounds _ KD) as Kb. rewrite r_eq by (assumption || lia).
  pose proof (DR_extract n t Hn) as X. pose proof (lookup_precision _ KD) as Lk.
  destruct H;
    unfold takum_linear8_precision, takum_linear16_precision, takum_linear32_precision, takum_linear64_precision,
      takum8_precision, takum16_precision, takum32_precision, takum64_precision, NaR;
    rewrite Z0, NN; cbn [orb]; unfold shr_promoted, shr_u, guard.
  all: match type of X with (Z.land ?a ?c / 2 ^ ?e)%Z = _ =>
         let c' := eval vm_compute in c in let e' := eval vm_compute in e in
         change c with c' in X; change (2 ^ e)%Z with (2 ^ e')%Z in X end.
  all: match goal with |- context [if ?b then Val _ else UB] => change b with true end; cbv beta iota delta [bind];
    rewrite X, Lk.
  1,5: destruct (Z.ltb_spec (11 - regZ (DRn 8 t)) 8); rewrite to_u_small by lia; f_equal; lia.
  all: rewrite to_u_small by lia; f_equal; lia.
Qed.

Lemma precision_special : forall k n f, precision_function k n f ->
  f 0%Z = Val (Z.max 0 (n - 12)) /\ f (nar n) = Val (Z.max 0 (n - 12)).
Proof. intros k n f []; split; reflexivity. Qed.

Lemma precision_worst : forall k n f t p, precision_function k n f -> is_intn n t -> f t = Val p -> (Z.max 0 (n - 12) <= p)%Z.
Proof.
  intros k n f t p H It Ep. assert (8 <= n <= 64)%Z as Hn by (destruct H; lia).
  destruct (precision_special k n f H) as [S1 S2]. destruct (takum_cases n t It) as [->|[->|R]].
  - rewrite S1 in Ep. injection Ep as <-. lia.
  - rewrite S2 in Ep. injection Ep as <-. lia.
  - rewrite (precision_correct k n f t H R) in Ep. injection Ep as <-.
    assert (0 <= DRn n t < 16)%Z as KD by (apply DRn_bounds; lia).
    pose proof (regZ_bounds _ KD). rewrite r_eq by (assumption || lia). lia.
Qed.

Lemma precision_spacing : forall k n f t p, precision_function k n f -> (16 <= n)%Z -> is_real_takum n t -> is_real_takum n (t + 1) ->
  f t = Val p -> Rabs (l_ n (t + 1) - l_ n t) = bpow radix2 (- p).
Proof.
  intros k n f t p H Hn16 R R' Ep. assert (8 <= n <= 64)%Z as Hn by (destruct H; lia).
  rewrite (precision_correct k n f t H R) in Ep. injection Ep as <-.
  assert (0 <= DRn n t < 16)%Z as KD by (apply DRn_bounds; lia).
  pose proof (regZ_bounds _ KD). rewrite r_eq by (assumption || apply R || lia).
  pose proof (real_low_pos n t ltac:(lia) R) as Hu. pose proof (real_low_pos n (t + 1) ltac:(lia) R') as Hu'.
  assert ((t + 1 <? 0)%Z = (t <? 0)%Z) as Hs.
  { destruct R' as (_ & Z1 & _). destruct (Z.ltb_spec (t + 1) 0), (Z.ltb_spec t 0); try reflexivity; lia. }
  assert (low n (t + 1) = low n t + 1)%Z as Hl.
  { pose proof (asm_low n t ltac:(lia) (proj1 R)) as A. pose proof (asm_low n (t + 1) ltac:(lia) (proj1 R')) as A'. rewrite Hs in A'.
    unfold asm in A, A'. destruct (t <? 0)%Z; lia. }
  rewrite (l_sg_cpm n t), (l_sg_cpm n (t + 1)) by (assumption || lia). rewrite Hs, Hl.
  rewrite <- Rmult_minus_distr_l, Rabs_mult, sg_abs, Rmult_1_l.
  unfold DRn in *. set (DR := (low n t / 2 ^ (n - 5))%Z) in *. set (y := (low n t mod 2 ^ (n - 5))%Z).
  pose proof (pow2_pos (n - 5) ltac:(lia)).
  assert (low n t = DR * 2 ^ (n - 5) + y)%Z as Ey by (unfold DR, y; rewrite Z.mul_comm; apply Z.div_mod; lia).
  pose proof (Z.mod_pos_bound (low n t) (2 ^ (n - 5)) ltac:(lia)) as Hy. fold y in Hy.
  rewrite Hl in Hu'. rewrite Ey in *. rewrite <- Z.add_assoc in *. rewrite !cpm_affine by lia.
  rewrite plus_IZR. rewrite Z.max_r by lia.
  replace (_ - _) with (bpow radix2 (regZ DR - (n - 5))) by ring. rewrite Rabs_pos_eq by apply bpow_ge_0. f_equal. lia.
Qed.

(** ** takum64: correct rounding fails, with a bounded error *)
Lemma RF_rel : forall f k e, (0 <= e <= 100)%Z -> 
  Rabs (RF f (IZR k * bpow radix2 (- e)) - IZR k * bpow radix2 (- e)) <= bpow radix2 (- fprec f) * Rabs (IZR k * bpow radix2 (- e)).
Proof.
  intros f k e He. pose proof (fmt_pos f).
  destruct (Z.eq_dec k 0) as [->|K0]; [rewrite !Rmult_0_l, RF_0, Rabs_R0; unfold Rminus; rewrite Rplus_0_l, Rabs_Ropp, Rabs_R0; lra|].
  replace (bpow radix2 (- fprec f)) with (/ 2 * bpow radix2 (- fprec f + 1)).
  - apply (Relative.relative_error_N_FLT radix2 (femin f) (fprec f) ltac:(lia) (fun x => negb (Z.even x))).
    rewrite Rabs_mult, (Rabs_pos_eq (bpow _ _)) by apply bpow_ge_0.
    apply Rle_trans with (1 * bpow radix2 (- e)).
    + rewrite Rmult_1_l. apply bpow_le. destruct f; unfold femin in *; simpl in *; lia.
    + apply Rmult_le_compat_r; [apply bpow_ge_0|]. rewrite <- abs_IZR. apply IZR_le. lia.
  - rewrite bpow_plus. change (bpow radix2 1) with 2. field.
Qed.

Lemma mul64_error : forall a b x y, is_real_takum 64 a -> is_real_takum 64 b ->
  value Logarithmic 64 a = Some x -> value Logarithmic 64 b = Some y ->
  exists t L, takum64_multiplication x86_64 a b = Val t /\
    Rabs (L - log_coord (x * y)) <= bpow radix2 (-64) * Rabs (log_coord (x * y)) /\
    nearest 64 (Rlt_bool (x * y) 0) L t.
Proof.
  intros a b x y Ra Rb Vx Vy. rewrite value_log_real in Vx, Vy by (assumption || lia). injection Vx as <-. injection Vy as <-.
  rewrite sg_mul_value. change (takum64_multiplication x86_64 a b) with (g_mul mach64 a b).
  rewrite (g_mul_code mach64 mach64_ok) by assumption. eexists. exists (RF f80 (l_ 64 a + l_ 64 b)). split; [reflexivity|].
  pose proof (coord_sg (xorb (a <? 0) (b <? 0))%Z Logarithmic (l_ 64 a + l_ 64 b)) as C. unfold coord, E in C. unfold sg. rewrite C.
  pose proof (sg_Rlt_bool (xorb (a <? 0) (b <? 0))%Z Logarithmic (l_ 64 a + l_ 64 b)) as S. unfold E in S. rewrite S. split.
  - destruct (sum_dyadic mach64 mach64_ok a b Ra Rb) as [[k Ek] _]. change (m_n mach64) with 64%Z in Ek. rewrite Ek.
    apply (RF_rel f80). lia.
  - unfold code. change (m_n mach64) with 64%Z. apply enc_nearest_sg. lia.
Qed.

Lemma div64_error : forall a b x y, is_real_takum 64 a -> is_real_takum 64 b ->
  value Logarithmic 64 a = Some x -> value Logarithmic 64 b = Some y ->
  exists t L, takum64_division x86_64 a b = Val t /\
    Rabs (L - log_coord (x / y)) <= bpow radix2 (-64) * Rabs (log_coord (x / y)) /\
    nearest 64 (Rlt_bool (x / y) 0) L t.
Proof.
  intros a b x y Ra Rb Vx Vy. rewrite value_log_real in Vx, Vy by (assumption || lia). injection Vx as <-. injection Vy as <-.
  rewrite sg_div_value. change (takum64_division x86_64 a b) with (g_div mach64 a b).
  rewrite (g_div_code mach64 mach64_ok) by assumption. eexists. exists (RF f80 (l_ 64 a - l_ 64 b)). split; [reflexivity|].
  pose proof (coord_sg (xorb (a <? 0) (b <? 0))%Z Logarithmic (l_ 64 a - l_ 64 b)) as C. unfold coord, E in C. unfold sg. rewrite C.
  pose proof (sg_Rlt_bool (xorb (a <? 0) (b <? 0))%Z Logarithmic (l_ 64 a - l_ 64 b)) as S. unfold E in S. rewrite S. split.
  - destruct (diff_dyadic mach64 mach64_ok a b Ra Rb) as [[k Ek] _]. change (m_n mach64) with 64%Z in Ek. rewrite Ek.
    apply (RF_rel f80). lia.
  - unfold code. change (m_n mach64) with 64%Z. apply enc_nearest_sg. lia.
Qed.

Lemma l64 : forall t, is_real_takum 64 t -> (0 < t)%Z -> l_ 64 t = IZR (X t) / IZR (2 ^ 59).
Proof.
  intros t R P. rewrite l_sg_cpm by (assumption || lia). destruct (Z.ltb_spec t 0); [lia|]. unfold sg, cpm, Xn, code64.
  rewrite Rmult_1_l. do 3 f_equal. rewrite Z.mul_1_r. unfold low. apply Z.mod_small. unfold is_real_takum, is_intn in R. lia.
Qed.

Ltac real_const := unfold is_real_takum, is_intn, nar; lia.

Lemma mul64_refuted : exists a b t x y, is_real_takum 64 a /\ is_real_takum 64 b /\
  value Logarithmic 64 a = Some x /\ value Logarithmic 64 b = Some y /\
  takum64_multiplication x86_64 a b = Val t /\ ~ rounds Logarithmic 64 (x * y) t.
Proof.
  set (a := (2 ^ 62 + 65)%Z). set (b := 0x7810000000000000%Z).
  assert (is_real_takum 64 a) as Ra by (unfold a; real_const).
  assert (is_real_takum 64 b) as Rb by (unfold b; real_const).
  assert (is_real_takum 64 (b + 1)) as Rb' by (unfold b; real_const).
  exists a, b, b. do 2 eexists. split; [assumption|]. split; [assumption|].
  rewrite !value_log_real by (assumption || lia). split; [reflexivity|]. split; [reflexivity|].
  split; [vm_compute; reflexivity|]. rewrite sg_mul_value. intros H.
  apply (rounds_sg_inv Logarithmic) in H. destruct H as (_ & _ & H). destruct (H (b + 1)%Z Rb' ltac:(reflexivity)) as [K _].
  rewrite !l64 in K by (assumption || reflexivity).
  assert (X a = 65)%Z as HX by reflexivity. rewrite HX in K. clear HX.
  assert (X b = 128 * 2 ^ 59)%Z as HX by reflexivity. rewrite HX in K. clear HX.
  assert (X (b + 1) = 128 * 2 ^ 59 + 128)%Z as HX by reflexivity. rewrite HX in K. clear HX.
  rewrite plus_IZR in K. set (q := IZR (128 * 2 ^ 59)) in K.
  assert (0 < / IZR (2 ^ 59)) as Hi by (apply Rinv_0_lt_compat, IZR_lt; lia).
  replace (q / IZR (2 ^ 59) - (65 / IZR (2 ^ 59) + q / IZR (2 ^ 59))) with (- (65 * / IZR (2 ^ 59))) in K by (unfold Rdiv; ring).
  replace ((q + 128) / IZR (2 ^ 59) - (65 / IZR (2 ^ 59) + q / IZR (2 ^ 59))) with (63 * / IZR (2 ^ 59)) in K by (unfold Rdiv; ring).
  rewrite Rabs_Ropp, !Rabs_pos_eq in K by lra. lra.
Qed.

Lemma div64_refuted : exists a b t x y, is_real_takum 64 a /\ is_real_takum 64 b /\
  value Logarithmic 64 a = Some x /\ value Logarithmic 64 b = Some y /\
  takum64_division x86_64 a b = Val t /\ ~ rounds Logarithmic 64 (x / y) t.
Proof.
  set (a := (2 ^ 62 - 65)%Z). set (b := 0x7810000000000000%Z).
  assert (is_real_takum 64 a) as Ra by (unfold a; real_const).
  assert (is_real_takum 64 b) as Rb by (unfold b; real_const).
  set (c := (2 ^ 63 - b)%Z).
  assert (is_real_takum 64 c) as Rc by (unfold c, b; real_const).
  assert (is_real_takum 64 (c - 1)) as Rc' by (unfold c, b; real_const).
  exists a, b, c. do 2 eexists. split; [assumption|]. split; [assumption|].
  rewrite !value_log_real by (assumption || lia). split; [reflexivity|]. split; [reflexivity|].
  split; [vm_compute; reflexivity|]. rewrite sg_div_value. intros H.
  apply (rounds_sg_inv Logarithmic) in H. destruct H as (_ & _ & H). destruct (H (c - 1)%Z Rc' ltac:(reflexivity)) as [K _].
  rewrite !l64 in K by (assumption || reflexivity).
  assert (X a = -65)%Z as HX by reflexivity. rewrite HX in K. clear HX.
  assert (X b = 128 * 2 ^ 59)%Z as HX by reflexivity. rewrite HX in K. clear HX.
  assert (X c = - (128 * 2 ^ 59))%Z as HX by reflexivity. rewrite HX in K. clear HX.
  assert (X (c - 1) = - (128 * 2 ^ 59) - 128)%Z as HX by reflexivity. rewrite HX in K. clear HX.
  rewrite minus_IZR, opp_IZR in K. set (q := IZR (128 * 2 ^ 59)) in K.
  assert (0 < / IZR (2 ^ 59)) as Hi by (apply Rinv_0_lt_compat, IZR_lt; lia).
  replace (- q / IZR (2 ^ 59) - (-65 / IZR (2 ^ 59) - q / IZR (2 ^ 59))) with (65 * / IZR (2 ^ 59)) in K by (unfold Rdiv; ring).
  replace ((- q - 128) / IZR (2 ^ 59) - (-65 / IZR (2 ^ 59) - q / IZR (2 ^ 59))) with (- (63 * / IZR (2 ^ 59))) in K by (unfold Rdiv; ring).
  rewrite Rabs_Ropp, !Rabs_pos_eq in K by lra. lra.
Qed.
