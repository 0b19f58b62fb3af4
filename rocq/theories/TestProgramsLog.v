(** Proofs about the test programs for logarithmic takums of at most 32 bits. *)
From Coq Require Import ZArith Reals Bool Lia Lra List.
From Flocq Require Import Core.Core Relative IEEE754.BinarySingleNaN.
From Verif Require Import CModel FloatModel Libm Arith Codec Spec FloatSpec CodeFacts SpecFacts ValueFacts RoundFacts
  WidthFacts WidthProps FloatFacts EncodeFacts Machine Conversion Wrappers LinApi LinFacts LinProps LogApi LogProps LogConv LibmSpec LogAlgebra NearFacts NearCode WrapSpec LinOps LinArith WrapApi WrapTotal
  Agree TestHarness HarnessSpec HarnessResults TestBlocksSpec TestBlocks TestBlocksProofs TestPrograms TestProgramsProofs.
Local Open Scope R_scope.

(** ** Nearest takums of neighbouring coordinates *)
Lemma l_strict : forall n t t', (6 <= n <= 64)%Z -> is_real_takum n t -> is_real_takum n t' -> (t < t')%Z -> (t <? 0)%Z = (t' <? 0)%Z ->
  if (t <? 0)%Z then l_ n t' < l_ n t else l_ n t < l_ n t'.
Proof.
  intros n t t' Hn R R' L S. rewrite !l_sg_cpm by assumption. rewrite <- S.
  pose proof (real_low_pos n t ltac:(lia) R) as B. pose proof (real_low_pos n t' ltac:(lia) R') as B'.
  assert (low n t < low n t')%Z as K.
  { rewrite <- (asm_low n t), <- (asm_low n t') in L by (apply R || apply R' || lia). rewrite <- S in L. unfold asm in L. destruct (t <? 0)%Z; lia. }
  apply (cpm_lt_iff n Hn) in K; [|lia|lia]. unfold sg. destruct (t <? 0)%Z; lra.
Qed.
Lemma two_near1 : forall n s L L' t t', (6 <= n <= 64)%Z -> nearest n s L t -> nearest n s L' t' -> Rabs (L - L') < bpow radix2 (4 - n) -> (t' <= t + 1)%Z.
Proof.
  intros n s L L' t t' Hn N N' D. destruct (Z.le_gt_cases t' (t + 1)) as [H|H]; [assumption|exfalso].
  destruct N as (R & S & M), N' as (R' & S' & M').
  assert (is_real_takum n (t + 1) /\ has_sign s (t + 1)) as [Ru Su].
  { destruct R as (I & Z0 & NN), R' as (I' & Z0' & NN'). unfold is_real_takum, is_intn, nar, has_sign in *. destruct s; lia. }
  assert (forall w, has_sign s w -> (w <? 0)%Z = s) as ES by (intros w; unfold has_sign; destruct s, (Z.ltb_spec w 0); (reflexivity || lia)).
  pose proof (l_strict n t (t + 1) Hn R Ru ltac:(lia) ltac:(rewrite !ES by assumption; reflexivity)) as O.
  pose proof (l_strict n (t + 1) t' Hn Ru R' ltac:(lia) ltac:(rewrite !ES by assumption; reflexivity)) as O'.
  rewrite ES in O, O' by assumption.
  destruct (M _ Ru Su) as [M1 _]. destruct (M' _ Ru Su) as [M2 _]. clear M M'.
  assert (bpow radix2 (4 - n) * 1 <= Rabs (l_ n (t + 1) - l_ n t) /\ bpow radix2 (4 - n) * 1 <= Rabs (l_ n t' - l_ n (t + 1))) as [G G'].
  { pose proof (bpow_gt_0 radix2 (4 - n)) as P. pose proof (Rabs_pos (l_ n (t + 1))) as Q. assert (bpow radix2 (4 - n) * 1 <= bpow radix2 (4 - n) * (Rabs (l_ n (t + 1)) + 1)) as PQ by nra. destruct s.
    - destruct (l_gap n Hn (t + 1)%Z t Ru R ltac:(rewrite !ES by assumption; reflexivity) O) as [A1 A2]. destruct (l_gap n Hn t' (t + 1)%Z R' Ru ltac:(rewrite !ES by assumption; reflexivity) O') as [A3 A4].
      rewrite !Rabs_left1 by lra. lra.
    - destruct (l_gap n Hn t (t + 1)%Z R Ru ltac:(rewrite !ES by assumption; reflexivity) O) as [A1 A2]. destruct (l_gap n Hn (t + 1)%Z t' Ru R' ltac:(rewrite !ES by assumption; reflexivity) O') as [A3 A4].
      rewrite !Rabs_pos_eq by lra. lra. }
  rewrite Rmult_1_r in G, G'. revert M1 M2 G G' D. set (e := bpow radix2 (4 - n)). generalize (l_ n t) (l_ n (t + 1)) (l_ n t') O O'. clear. intros a b c O O' M1 M2 G G' D.
  apply Rabs_def2 in D. unfold Rabs in *. destruct s; repeat destruct Rcase_abs; lra.
Qed.
Lemma two_near : forall n s L L' t t', (6 <= n <= 64)%Z -> nearest n s L t -> nearest n s L' t' -> Rabs (L - L') < bpow radix2 (4 - n) -> (Z.abs (t - t') <= 1)%Z.
Proof.
  intros n s L L' t t' Hn N N' D. pose proof (two_near1 n s L L' t t' Hn N N' D). rewrite Rabs_minus_sym in D. pose proof (two_near1 n s L' L t' t Hn N' N D). lia.
Qed.

(** ** Rounding to long double *)
Lemma ln_RF80 : forall p, bpow radix2 (-600) <= p -> 0 < RF f80 p /\ Rabs (ln (RF f80 p) - ln p) <= bpow radix2 (-62).
Proof.
  intros p H. pose proof (bpow_gt_0 radix2 (-600)) as P0.
  assert (Rabs (RF f80 p - p) <= bpow radix2 (-64) * Rabs p) as E.
  { eapply Rle_trans; [apply (relative_error_N_FLT radix2 (femin f80) (fprec f80) (fprec_gt_0 f80) (fun x => negb (Z.even x)))|].
    - rewrite Rabs_pos_eq by lra. eapply Rle_trans; [|exact H]. apply bpow_le. vm_compute; discriminate.
    - apply Rmult_le_compat_r; [apply Rabs_pos|]. change (- fprec f80 + 1)%Z with (-63)%Z. replace (bpow radix2 (-63)) with (2 * bpow radix2 (-64)) by (simpl; lra). lra. }
  rewrite (Rabs_pos_eq p) in E by lra. set (e := bpow radix2 (-64)) in *.
  assert (0 < e <= 1 / 4) as He. { split; [apply bpow_gt_0|]. replace (1 / 4) with (bpow radix2 (-2)) by (simpl; lra). apply bpow_le. lia. }
  replace (bpow radix2 (-62)) with (4 * e) by (unfold e; simpl; lra).
  apply Rabs_le_inv in E. assert (0 < RF f80 p) as Y0 by nra. split; [assumption|].
  replace (ln (RF f80 p) - ln p) with (ln (RF f80 p / p)).
  2:{ unfold Rdiv. rewrite ln_mult, ln_Rinv by (lra || apply Rinv_0_lt_compat; lra). ring. }
  assert (1 - e <= RF f80 p / p <= 1 + e) as Q.
  { split; apply Rmult_le_reg_r with p; try lra; unfold Rdiv; rewrite ?Rmult_assoc, Rinv_l, ?Rmult_1_r by lra; nra. }
  set (q := RF f80 p / p) in *. pose proof (ln_lt_sub q ltac:(lra)). pose proof (ln_ge_sub q ltac:(lra)) as G.
  apply Rabs_le. split; [|nra].
  assert (/ q <= / (1 - e)) as K by (apply Rinv_le_contravar; lra).
  assert (/ (1 - e) = 1 + e / (1 - e)) as E1 by (field; lra).
  assert (e / (1 - e) <= 2 * e) as S.
  { assert (/ (1 - e) <= 2). { replace 2 with (/ (1 / 2)) by field. apply Rinv_le_contravar; lra. } unfold Rdiv. nra. }
  lra.
Qed.
Lemma ln_range : forall p, 0 < p -> Rabs (ln p) <= 300 -> bpow radix2 (-600) <= p <= bpow radix2 600.
Proof.
  intros p P H. apply Rabs_le_inv in H. split.
  - change (-600)%Z with (- (600))%Z. rewrite bpow_opp, <- (Rinv_inv p). apply Rinv_le_contravar; [apply Rinv_0_lt_compat; assumption|].
    rewrite <- (exp_ln p), <- exp_Ropp by assumption. apply exp_ln2_le; (lia || lra).
  - rewrite <- (exp_ln p) by assumption. apply exp_ln2_le; (lia || lra).
Qed.

(** ** The reference function for logarithmic takums: a value that is close to z *)
Lemma reference_near : forall lm w (y : flt f80) z t, c99 lm -> w <> W64 -> z <> 0 -> rounds Logarithmic (bits w) z t ->
  (exists p, isf y (sg (Rlt_bool z 0) * p) /\ 0 < p /\ Rabs (2 * ln p - log_coord z) <= bpow radix2 (-45)) -> Rabs (log_coord z) <= 601 ->
  exists t', log_from_ld x86_64 lm w y = Val t' /\ is_intn (bits w) t' /\ (Z.abs (t - t') <= 1)%Z.
Proof.
  intros lm w y z t C Nw Nz Rt (p & [Fy Vy] & P & D) B. assert (8 <= bits w <= 32)%Z as Hn by (destruct w; cbn; lia || contradiction).
  destruct (log_from_near lm (bits w) _ y C (log_ld_from lm w) Fy) as (t' & Et & Ft & Rn). exists t'. split; [assumption|].
  assert (B2R y <> 0) as N0 by (rewrite Vy; unfold sg; destruct (Rlt_bool z 0); lra). destruct (Rn N0) as (L & NL & DL).
  split; [apply NL|]. destruct Rt as [[K _]|[_ Rt]]; [contradiction|].
  assert (Rlt_bool (B2R y) 0 = Rlt_bool z 0) as Es by (rewrite Vy; unfold sg; destruct (Rlt_bool z 0); [apply Rlt_bool_true|apply Rlt_bool_false]; lra).
  assert (coord Logarithmic (B2R y) = 2 * ln p) as EL by (cbn [coord]; unfold log_coord; rewrite Vy, Rabs_mult, sg_abs, Rmult_1_l, Rabs_pos_eq by lra; reflexivity).
  rewrite Es in NL. rewrite EL in DL. cbn [coord] in Rt.
  apply (two_near (bits w) (Rlt_bool z 0) (log_coord z) L); [lia|assumption|assumption|].
  assert (code_error Logarithmic (bits w) = bpow radix2 (-59)) as CE by (unfold code_error; destruct (Z.eqb_spec (bits w) 64); [lia|reflexivity]). rewrite CE in DL.
  assert (bpow radix2 (-28) <= bpow radix2 (4 - bits w)) as G by (apply bpow_le; lia).
  assert (Rabs (2 * ln p) <= 602) as Bp. { replace (2 * ln p) with (log_coord z + (2 * ln p - log_coord z)) by ring. eapply Rle_trans; [apply Rabs_triang|]. simpl in D. lra. }
  replace (log_coord z - L) with (- (2 * ln p - log_coord z) - (L - 2 * ln p)) by ring. eapply Rle_lt_trans; [apply Rabs_triang|]. rewrite !Rabs_Ropp.
  simpl in *. lra.
Qed.
Lemma reference_near_RF : forall lm w (y : flt f80) z m t, c99 lm -> w <> W64 -> z <> 0 -> rounds Logarithmic (bits w) z t ->
  isf y (RF f80 (sg (Rlt_bool z 0) * m)) -> 0 < m -> Rabs (ln m) <= 300 -> Rabs (2 * ln m - log_coord z) <= bpow radix2 (-46) ->
  exists t', log_from_ld x86_64 lm w y = Val t' /\ is_intn (bits w) t' /\ (Z.abs (t - t') <= 1)%Z.
Proof.
  intros lm w y z m t C Nw Nz Rt Hy P B D. destruct (ln_range m P B) as [B1 B2]. destruct (ln_RF80 m B1) as [P' E].
  assert (RF f80 (sg (Rlt_bool z 0) * m) = sg (Rlt_bool z 0) * RF f80 m) as S.
  { unfold sg. destruct (Rlt_bool z 0); [|rewrite !Rmult_1_l; reflexivity]. replace (-1 * m) with (- m) by ring. rewrite RF_opp. ring. }
  rewrite S in Hy. apply (reference_near lm w y z t C Nw Nz Rt).
  - exists (RF f80 m). split; [assumption|]. split; [assumption|].
    replace (2 * ln (RF f80 m) - log_coord z) with (2 * (ln (RF f80 m) - ln m) + (2 * ln m - log_coord z)) by ring. eapply Rle_trans; [apply Rabs_triang|].
    rewrite Rabs_mult, (Rabs_pos_eq 2) by lra. simpl in *. lra.
  - replace (log_coord z) with (2 * ln m - (2 * ln m - log_coord z)) by ring. eapply Rle_trans; [apply Rabs_triang|]. rewrite Rabs_Ropp, Rabs_mult, (Rabs_pos_eq 2) by lra.
    simpl in *. lra.
Qed.

Lemma ld_log : forall lm w t, c99 lm -> is_real_takum (bits w) t ->
  exists y p, log_to_ld x86_64 lm w t = Val y /\ isf y (sg (t <? 0)%Z * p) /\ 0 < p /\ Rabs (2 * ln p - l_ (bits w) t) <= bpow radix2 (-50) /\ Rabs (ln p) <= 130.
Proof.
  intros lm w t C R. destruct (log_to_ld_real lm (bits w) _ t C (log_ld_to lm w) R) as (y & p & E & I & P & D & _). exists y, p. split; [assumption|]. split; [assumption|]. split; [assumption|].
  assert (Rabs (l_ (bits w) t) <= 255) as B by (apply l_abs; [destruct w; cbn; lia|assumption]). set (l := l_ (bits w) t) in *. pose proof (Rabs_pos l).
  assert (Rabs (ln p - l / 2) <= bpow radix2 (-51)) as D' by (simpl in *; nra). split.
  - replace (2 * ln p - l) with (2 * (ln p - l / 2)) by field. rewrite Rabs_mult, (Rabs_pos_eq 2) by lra. simpl in *. lra.
  - replace (ln p) with ((ln p - l / 2) + l / 2) by ring. eapply Rle_trans; [apply Rabs_triang|]. unfold Rdiv at 2. rewrite Rabs_mult, (Rabs_pos_eq (/ 2)) by lra. simpl in *. lra.
Qed.
Lemma coord_log : forall s l, log_coord (sg s * exp (l / 2)) = l.
Proof. intros s l. unfold log_coord. rewrite Rabs_mult, sg_abs, Rmult_1_l, Rabs_pos_eq by (left; apply exp_pos). rewrite ln_exp. field. Qed.
Lemma sg_xorb : forall s s', sg s * sg s' = sg (xorb s s').
Proof. intros [] []; unfold sg; cbn; ring. Qed.
Lemma sg_lt : forall s m, 0 < m -> Rlt_bool (sg s * m) 0 = s.
Proof. intros [] m H; unfold sg; [apply Rlt_bool_true|apply Rlt_bool_false]; lra. Qed.
Lemma sg_nonzero : forall s m, 0 < m -> sg s * m <> 0.
Proof. intros [] m H; unfold sg; lra. Qed.
Lemma RF80_fits : forall s m, 0 < m -> Rabs (ln m) <= 300 -> Rabs (RF f80 (sg s * m)) < bpow radix2 (femax f80).
Proof.
  intros s m P B. apply RF_no_overflow; [discriminate|]. rewrite Rabs_mult, sg_abs, Rmult_1_l, Rabs_pos_eq by lra. apply (ln_range m P B).
Qed.
Lemma narrow_w : forall w, w <> W64 -> (bits w = 8 \/ bits w = 16 \/ bits w = 32)%Z.
Proof. intros []; cbn; auto. intros H. exfalso. apply H. reflexivity. Qed.

(** ** Multiplication *)
Lemma log_mul_w : forall lm w, log_multiplication (bits w) (api_binary Logarithmic lm n_multiplication w).
Proof. intros lm []; constructor. Qed.
Lemma log_div_w : forall lm w, log_division (bits w) (api_binary Logarithmic lm n_division w).
Proof. intros lm []; constructor. Qed.
Lemma log_specials : forall lm w, c99 lm -> log_to_ld x86_64 lm w 0 = Val (B754_zero false) /\ log_to_ld x86_64 lm w (nar (bits w)) = Val B754_nan.
Proof. intros lm w C. exact (log_to_specials lm (bits w) f80 _ C (log_ld_to lm w)). Qed.
Lemma ref_nan : forall lm w (y : flt f80), is_finite y = false -> log_from_ld x86_64 lm w y = Val (nar (bits w)).
Proof. intros lm w y H. exact (log_from_nan lm (bits w) f80 _ y (log_ld_from lm w) H). Qed.
Lemma ref_zero : forall lm w s, log_from_ld x86_64 lm w (B754_zero s) = Val 0%Z.
Proof. intros lm w s. exact (log_from_0 lm (bits w) f80 _ s (log_ld_from lm w)). Qed.
Lemma ref_zero' : forall lm w (y : flt f80) s, y = B754_zero s -> log_from_ld x86_64 lm w y = Val 0%Z.
Proof. intros lm w y s ->. apply ref_zero. Qed.
Lemma rounds_zero : forall k n t, rounds k n 0 t -> t = 0%Z.
Proof. intros k n t [[_ H]|[H _]]; [assumption|]. exfalso. apply H. reflexivity. Qed.
Lemma finite_zero_mul : forall (x : flt f80) s, is_finite x = true -> exists s', fmul x (B754_zero s) = B754_zero s' /\ exists s', fmul (B754_zero s) x = B754_zero s'.
Proof. intros x s F. destruct x; try discriminate; eexists; (split; [reflexivity|]); eexists; reflexivity. Qed.
Lemma finish : forall w (f r : outcome Z) t, w <> W64 -> f = Val t -> is_intn (bits w) t ->
  (exists t', r = Val t' /\ is_intn (bits w) t' /\ (Z.abs (t - t') <= 1)%Z) -> (let! e := r in let! o := f in deviates o e) = Val 0%Z.
Proof. intros w f r t Nw -> It (t' & -> & It' & D). cbn [bind]. apply (deviates_near (bits w)); auto using narrow_w. Qed.
Lemma eval2 : forall lm op w a b x y, is_intn (bits w) a -> is_intn (bits w) b -> log_to_ld x86_64 lm w a = Val x -> log_to_ld x86_64 lm w b = Val y ->
  evaluate_takum_takum lm op Logarithmic w a b = log_from_ld x86_64 lm w (op x y).
Proof. intros lm op w a b x y Ia Ib Ex Ey. unfold evaluate_takum_takum, int64_takum_to_extended_float, int64_takum_from_extended_float. rewrite !to_s_same, Ex, Ey by assumption. reflexivity. Qed.
Lemma eval1 : forall lm op w a x, is_intn (bits w) a -> log_to_ld x86_64 lm w a = Val x ->
  evaluate_takum lm op Logarithmic w a = log_from_ld x86_64 lm w (op x).
Proof. intros lm op w a x Ia Ex. unfold evaluate_takum, int64_takum_to_extended_float, int64_takum_from_extended_float. rewrite !to_s_same, Ex by assumption. reflexivity. Qed.
Lemma same_code : forall w t r, is_intn (bits w) t -> r = Val t -> exists t', r = Val t' /\ is_intn (bits w) t' /\ (Z.abs (t - t') <= 1)%Z.
Proof. intros w t r It ->. exists t. split; [reflexivity|]. split; [assumption|lia]. Qed.
(** what the conversion gives, for every takum *)
Lemma ld_cases : forall lm w t, c99 lm -> is_intn (bits w) t ->
  (t = 0%Z /\ log_to_ld x86_64 lm w t = Val (B754_zero false) /\ value Logarithmic (bits w) t = Some 0) \/
  (t = nar (bits w) /\ log_to_ld x86_64 lm w t = Val B754_nan /\ value Logarithmic (bits w) t = None) \/
  (is_real_takum (bits w) t /\ value Logarithmic (bits w) t = Some (sg (t <? 0)%Z * exp (l_ (bits w) t / 2)) /\
   exists y p, log_to_ld x86_64 lm w t = Val y /\ isf y (sg (t <? 0)%Z * p) /\ 0 < p /\ Rabs (2 * ln p - l_ (bits w) t) <= bpow radix2 (-50) /\ Rabs (ln p) <= 130).
Proof.
  intros lm w t C It. assert (8 <= bits w <= 64)%Z as Hn by (destruct w; cbn; lia). destruct (log_specials lm w C) as [S1 S2]. destruct (takum_cases (bits w) t It) as [-> | [-> | Hr]].
  - left. split; [reflexivity|]. split; [assumption|apply value_0].
  - right. left. split; [reflexivity|]. split; [assumption|apply value_nar; lia].
  - right. right. split; [assumption|]. split; [apply LogFacts.value_log_real; assumption|]. apply ld_log; assumption.
Qed.

Lemma mul_log_check : forall lm w a b, c99 lm -> w <> W64 -> test_case (multiplication_utb lm) w a b -> check_unary_binary_case (multiplication_utb lm) a b Logarithmic w = Val 0%Z.
Proof.
  intros lm w a b C Nw [Ia Ib]. cbn [check_unary_binary_case multiplication_utb]. rewrite !to_s_same by assumption.
  destruct (mul_correct (bits w) _ a b (log_mul_w lm w) ltac:(destruct (narrow_w w Nw) as [->|[->| ->]]; lia) Ia Ib) as (t & E & It & K).
  apply (finish w _ _ t Nw E It).
  destruct (ld_cases lm w a C Ia) as [(-> & Ex & Va)|[(-> & Ex & Va)|(Ra & Va & x & p & Ex & Hx & Pp & Dp & Bp)]];
  destruct (ld_cases lm w b C Ib) as [(-> & Ey & Vb)|[(-> & Ey & Vb)|(Rb & Vb & y & q & Ey & Hy & Pq & Dq & Bq)]]; rewrite ?Va, ?Vb in K;
  rewrite (eval2 lm fmul w _ _ _ _ Ia Ib Ex Ey).
  - apply (same_code w t _ It). rewrite Rmult_0_l in K. rewrite (rounds_zero _ _ _ K). apply ref_zero.
  - apply (same_code w t _ It). rewrite K. apply ref_nan. reflexivity.
  - apply (same_code w t _ It). rewrite Rmult_0_l in K. rewrite (rounds_zero _ _ _ K). destruct (finite_zero_mul y false (proj1 Hy)) as (s' & _ & s & Q). exact (ref_zero' lm w _ s Q).
  - apply (same_code w t _ It). rewrite K. apply ref_nan. reflexivity.
  - apply (same_code w t _ It). rewrite K. apply ref_nan. reflexivity.
  - apply (same_code w t _ It). rewrite K. apply ref_nan. exact (f_equal is_finite (proj1 (fmul_nan f80 y))).
  - apply (same_code w t _ It). rewrite Rmult_0_r in K. rewrite (rounds_zero _ _ _ K). destruct (finite_zero_mul x false (proj1 Hx)) as (s' & Q & _). exact (ref_zero' lm w _ s' Q).
  - apply (same_code w t _ It). rewrite K. apply ref_nan. exact (f_equal is_finite (proj2 (fmul_nan f80 x))).
  - set (s := (a <? 0)%Z) in *. set (s' := (b <? 0)%Z) in *. set (la := l_ (bits w) a) in *. set (lb := l_ (bits w) b) in *.
    assert (sg s * exp (la / 2) * (sg s' * exp (lb / 2)) = sg (xorb s s') * exp ((la + lb) / 2)) as EZ.
    { rewrite <- sg_xorb. replace ((la + lb) / 2) with (la / 2 + lb / 2) by field. rewrite exp_plus. ring. }
    rewrite EZ in K. pose proof (exp_pos ((la + lb) / 2)) as PE.
    assert (0 < p * q) as Ppq by (apply Rmult_lt_0_compat; assumption). assert (ln (p * q) = ln p + ln q) as EL by (apply ln_mult; assumption).
    assert (Rabs (ln (p * q)) <= 300) as B by (rewrite EL; eapply Rle_trans; [apply Rabs_triang|]; lra).
    apply (reference_near_RF lm w _ _ (p * q) t C Nw (sg_nonzero _ _ PE) K); [|assumption|assumption|].
    + rewrite sg_lt by assumption. replace (sg (xorb s s') * (p * q)) with (sg s * p * (sg s' * q)) by (rewrite <- sg_xorb; ring).
      apply isf_fmul; [assumption|assumption|]. replace (sg s * p * (sg s' * q)) with (sg (xorb s s') * (p * q)) by (rewrite <- sg_xorb; ring). apply RF80_fits; assumption.
    + rewrite coord_log, EL. replace (2 * (ln p + ln q) - (la + lb)) with ((2 * ln p - la) + (2 * ln q - lb)) by ring. eapply Rle_trans; [apply Rabs_triang|]. simpl in *. lra.
Qed.

(** ** Division *)
Lemma finite_zero_div : forall (y : flt f80) s v, isf y v -> v <> 0 -> exists s', fdiv (B754_zero s) y = B754_zero s'.
Proof.
  intros y s v [F V] N. destruct y as [s0|s0| |s0 m e He]; try discriminate; [exfalso; apply N; rewrite <- V; reflexivity|]. eexists. reflexivity.
Qed.
Lemma div_zero_bad : forall (x : flt f80), is_finite x = true -> is_finite (fdiv x (B754_zero false)) = false.
Proof. intros x F. destruct x; try discriminate; reflexivity. Qed.
Lemma div_log_check : forall lm w a b, c99 lm -> w <> W64 -> test_case (division_utb lm) w a b -> check_unary_binary_case (division_utb lm) a b Logarithmic w = Val 0%Z.
Proof.
  intros lm w a b C Nw [Ia Ib]. cbn [check_unary_binary_case division_utb]. rewrite !to_s_same by assumption.
  destruct (div_correct (bits w) _ a b (log_div_w lm w) ltac:(destruct (narrow_w w Nw) as [->|[->| ->]]; lia) Ia Ib) as (t & E & It & K).
  apply (finish w _ _ t Nw E It).
  destruct (ld_cases lm w a C Ia) as [(-> & Ex & Va)|[(-> & Ex & Va)|(Ra & Va & x & p & Ex & Hx & Pp & Dp & Bp)]];
  destruct (ld_cases lm w b C Ib) as [(-> & Ey & Vb)|[(-> & Ey & Vb)|(Rb & Vb & y & q & Ey & Hy & Pq & Dq & Bq)]]; rewrite ?Va, ?Vb in K;
  rewrite (eval2 lm fdiv w _ _ _ _ Ia Ib Ex Ey).
  - apply (same_code w t _ It). destruct K as [[_ ->]|[K _]]; [apply ref_nan; reflexivity|exfalso; apply K; reflexivity].
  - apply (same_code w t _ It). rewrite K. apply ref_nan. reflexivity.
  - apply (same_code w t _ It). destruct (finite_zero_div y false _ Hy (sg_nonzero _ _ Pq)) as (s & Q).
    destruct K as [[K _]|[_ K]]; [exfalso; revert K; apply sg_nonzero, exp_pos|]. unfold Rdiv in K. rewrite Rmult_0_l in K. rewrite (rounds_zero _ _ _ K). exact (ref_zero' lm w _ s Q).
  - apply (same_code w t _ It). rewrite K. apply ref_nan. reflexivity.
  - apply (same_code w t _ It). rewrite K. apply ref_nan. reflexivity.
  - apply (same_code w t _ It). rewrite K. apply ref_nan. exact (f_equal is_finite (proj1 (fdiv_nan f80 y))).
  - apply (same_code w t _ It). destruct K as [[_ ->]|[K _]]; [apply ref_nan, div_zero_bad, Hx|exfalso; apply K; reflexivity].
  - apply (same_code w t _ It). rewrite K. apply ref_nan. exact (f_equal is_finite (proj2 (fdiv_nan f80 x))).
  - destruct K as [[K _]|[_ K]]; [exfalso; revert K; apply sg_nonzero, exp_pos|].
    set (s := (a <? 0)%Z) in *. set (s' := (b <? 0)%Z) in *. set (la := l_ (bits w) a) in *. set (lb := l_ (bits w) b) in *.
    assert (forall u v, 0 < v -> sg s * u / (sg s' * v) = sg (xorb s s') * (u / v)) as ED.
    { intros u v Hv. rewrite <- sg_xorb. unfold Rdiv. rewrite Rinv_mult. replace (/ sg s') with (sg s') by (unfold sg; destruct s'; field). ring. }
    assert (sg s * exp (la / 2) / (sg s' * exp (lb / 2)) = sg (xorb s s') * exp ((la - lb) / 2)) as EZ.
    { rewrite ED by apply exp_pos. replace ((la - lb) / 2) with (la / 2 + - (lb / 2)) by field. rewrite exp_plus, exp_Ropp. reflexivity. }
    rewrite EZ in K. pose proof (exp_pos ((la - lb) / 2)) as PE.
    assert (0 < p / q) as Ppq by (apply Rdiv_lt_0_compat; assumption).
    assert (ln (p / q) = ln p - ln q) as EL by (unfold Rdiv; rewrite ln_mult, ln_Rinv by (assumption || apply Rinv_0_lt_compat; assumption); ring).
    assert (Rabs (ln (p / q)) <= 300) as B by (rewrite EL; eapply Rle_trans; [apply Rabs_triang|]; rewrite Rabs_Ropp; lra).
    apply (reference_near_RF lm w _ _ (p / q) t C Nw (sg_nonzero _ _ PE) K); [|assumption|assumption|].
    + rewrite sg_lt by assumption. rewrite <- ED by assumption.
      apply isf_fdiv; [assumption|assumption|apply sg_nonzero; assumption|]. rewrite ED by assumption. apply RF80_fits; assumption.
    + rewrite coord_log, EL. replace (2 * (ln p - ln q) - (la - lb)) with ((2 * ln p - la) + - (2 * ln q - lb)) by ring. eapply Rle_trans; [apply Rabs_triang|]. rewrite Rabs_Ropp. simpl in *. lra.
Qed.

(** ** Square root *)
Lemma log_sqrt_w : forall w, log_square_root (bits w) (match w with W8 => takum8_square_root x86_64 | W16 => takum16_square_root | W32 => takum32_square_root x86_64 | W64 => takum64_square_root x86_64 end).
Proof. intros []; constructor. Qed.
Lemma sqrt_log_check : forall lm w a b, c99 lm -> w <> W64 -> test_case (square_root_utb lm) w a b -> check_unary_binary_case (square_root_utb lm) a b Logarithmic w = Val 0%Z.
Proof.
  intros lm w a b C Nw [Ia _]. cbn [check_unary_binary_case square_root_utb]. rewrite !to_s_same by assumption.
  destruct (sqrt_correct (bits w) _ a (log_sqrt_w w) Ia) as (t & E & It & K).
  apply (finish w _ _ t Nw E It).
  destruct (ld_cases lm w a C Ia) as [(-> & Ex & Va)|[(-> & Ex & Va)|(Ra & Va & x & p & Ex & Hx & Pp & Dp & Bp)]]; rewrite Va in K;
  rewrite (eval1 lm fsqrt w _ _ Ia Ex).
  - apply (same_code w t _ It). destruct K as [[K _]|[_ K]]; [lra|]. rewrite sqrt_0 in K. rewrite (rounds_zero _ _ _ K). exact (ref_zero' lm w _ false eq_refl).
  - apply (same_code w t _ It). rewrite K. apply ref_nan. reflexivity.
  - set (s := (a <? 0)%Z) in *. set (la := l_ (bits w) a) in *. pose proof (exp_pos (la / 2)) as PE. destruct s; unfold sg in Hx, K.
    + apply (same_code w t _ It). destruct K as [[_ ->]|[K _]]; [|lra]. apply ref_nan. exact (f_equal is_finite (fsqrt_neg f80 x _ Hx ltac:(lra))).
    + destruct K as [[K _]|[_ K]]; [lra|]. rewrite Rmult_1_l in Hx, K.
      assert (sqrt (exp (la / 2)) = sg false * exp (la / 2 / 2)) as EZ.
      { unfold sg. rewrite Rmult_1_l. replace (la / 2) with (la / 2 / 2 + la / 2 / 2) at 1 by field. rewrite exp_plus. apply sqrt_square. left. apply exp_pos. }
      rewrite EZ in K. assert (0 < sqrt p) as Ps by (apply sqrt_lt_R0; assumption).
      assert (ln (sqrt p) = ln p / 2) as EL.
      { assert (ln p = ln (sqrt p) + ln (sqrt p)) by (rewrite <- ln_mult, sqrt_sqrt by lra; reflexivity). lra. }
      apply (reference_near_RF lm w _ _ (sqrt p) t C Nw (sg_nonzero _ _ (exp_pos _)) K); [|assumption| |].
      * rewrite sg_lt by apply exp_pos. unfold sg. rewrite Rmult_1_l. apply isf_fsqrt; assumption.
      * rewrite EL. unfold Rdiv. rewrite Rabs_mult, (Rabs_pos_eq (/ 2)) by lra. lra.
      * rewrite coord_log, EL. replace (2 * (ln p / 2) - la / 2) with (/ 2 * (2 * ln p - la)) by field. rewrite Rabs_mult, (Rabs_pos_eq (/ 2)) by lra. simpl in *. lra.
Qed.

(** ** Inversion *)
Lemma log_inv_w : forall w, log_inversion (bits w) (inversion (bits w)).
Proof. intros []; constructor. Qed.
Lemma inv_log_check : forall lm w a b, c99 lm -> w <> W64 -> test_case (inversion_utb lm) w a b -> check_unary_binary_case (inversion_utb lm) a b Logarithmic w = Val 0%Z.
Proof.
  intros lm w a b C Nw [Ia _]. cbn [check_unary_binary_case inversion_utb]. rewrite !to_s_same by assumption.
  destruct (inversion_lossless (bits w) _ a (log_inv_w w) Ia) as (t & E & It & K).
  apply (finish w _ _ t Nw E It).
  destruct (ld_cases lm w a C Ia) as [(-> & Ex & Va)|[(-> & Ex & Va)|(Ra & Va & x & p & Ex & Hx & Pp & Dp & Bp)]]; rewrite Va in K;
  rewrite (eval1 lm (fdiv (one f80)) w _ _ Ia Ex).
  - apply (same_code w t _ It). destruct K as [[_ ->]|[K _]]; [apply ref_nan; reflexivity|]. exfalso. apply K. reflexivity.
  - apply (same_code w t _ It). rewrite K. apply ref_nan. reflexivity.
  - destruct K as [[K _]|[_ K]]; [exfalso; revert K; apply sg_nonzero, exp_pos|].
    set (s := (a <? 0)%Z) in *. set (la := l_ (bits w) a) in *.
    assert (forall v, / (sg s * v) = sg s * / v) as ED by (intros v; rewrite Rinv_mult; f_equal; unfold sg; destruct s; field).
    assert (/ (sg s * exp (la / 2)) = sg s * exp (- la / 2)) as EZ by (rewrite ED; replace (- la / 2) with (- (la / 2)) by field; rewrite exp_Ropp; reflexivity).
    rewrite EZ in K. assert (rounds Logarithmic (bits w) (sg s * exp (- la / 2)) t) as K' by (apply LogProps.rounds_self; [destruct w; cbn; lia|assumption|assumption]).
    assert (0 < / p) as Ps by (apply Rinv_0_lt_compat; assumption). assert (ln (/ p) = - ln p) as EL by (apply ln_Rinv; assumption).
    assert (Rabs (ln (/ p)) <= 300) as B by (rewrite EL, Rabs_Ropp; lra).
    apply (reference_near_RF lm w _ _ (/ p) t C Nw (sg_nonzero _ _ (exp_pos _)) K'); [|assumption|assumption|].
    + rewrite sg_lt by apply exp_pos. replace (sg s * / p) with (1 / (sg s * p)) by (unfold Rdiv; rewrite ED; ring).
      apply isf_fdiv; [apply (isf_1 f80)|assumption|apply sg_nonzero; assumption|]. replace (1 / (sg s * p)) with (sg s * / p) by (unfold Rdiv; rewrite ED; ring). apply RF80_fits; assumption.
    + rewrite coord_log, EL. replace (2 * - ln p - - la) with (- (2 * ln p - la)) by ring. rewrite Rabs_Ropp. simpl in *. lra.
Qed.

(** ** Square root and inversion of linear takums *)
Lemma eval1_lin : forall lm op w a x, is_intn (bits w) a -> lin_to_ld x86_64 w a = Val x ->
  evaluate_takum lm op Linear w a = lin_from_ld x86_64 w (op x).
Proof. intros lm op w a x Ia Ex. unfold evaluate_takum, int64_takum_to_extended_float, int64_takum_from_extended_float. rewrite !to_s_same, Ex by assumption. reflexivity. Qed.
Lemma finish_lin : forall w (f r : outcome Z) t, f = Val t -> is_intn (bits w) t -> (w = W64 -> r = f) ->
  (exists t', r = Val t' /\ is_intn (bits w) t' /\ (Z.abs (t - t') <= 1)%Z) -> (let! e := r in let! o := f in deviates o e) = Val 0%Z.
Proof.
  intros w f r t E It H R. destruct (width_w64 w) as [-> |Nw]; [|exact (finish w f r t Nw E It R)].
  rewrite (H eq_refl), E. cbn [bind]. apply deviates_same.
Qed.
Lemma lin_nan : forall w (y : flt f80), is_finite y = false -> lin_from_ld x86_64 w y = Val (nar (bits w)).
Proof. intros w y H. exact (res_nar (bits w) f80 _ y (lin_ld_from w) H). Qed.
Lemma lin_near : forall w (y : flt f80) z t, rounds_faithfully Linear (bits w) z t -> isf y (RF f80 z) -> (z <> 0 -> RF f80 z <> 0) ->
  exists t', lin_from_ld x86_64 w y = Val t' /\ is_intn (bits w) t' /\ (Z.abs (t - t') <= 1)%Z.
Proof.
  intros w y z t F Hy N. destruct (res_faithful (bits w) f80 _ (RF f80) y z (lin_ld_from w) (rd80 w) Hy N) as (t' & E & I & F'). exists t'. split; [assumption|]. split; [assumption|].
  apply (faithful_unit Linear (bits w) z); auto using w_std.
Qed.
Lemma lin_sqrt_w : forall w, linear_square_root (bits w) (takum_linear_square_root x86_64 w).
Proof. intros []; constructor. Qed.
Lemma lin_inv_w : forall w, linear_inversion (bits w) (takum_linear_inversion x86_64 w).
Proof. intros []; constructor. Qed.
Lemma sqrt_lin_check : forall lm w a b, test_case (square_root_utb lm) w a b -> check_unary_binary_case (square_root_utb lm) a b Linear w = Val 0%Z.
Proof.
  intros lm w a b [Ia _]. cbn [check_unary_binary_case square_root_utb]. rewrite !to_s_same by assumption.
  destruct (sqrt_lin_faithful (bits w) _ (lin_sqrt_w w) a Ia) as (t & E & It & K). apply (finish_lin w _ _ t E It).
  { intros ->. unfold evaluate_takum, int64_takum_to_extended_float, int64_takum_from_extended_float. rewrite !to_s_same by assumption. reflexivity. }
  destruct (ld_operand w a Ia) as (x & Ex & Kx). rewrite (eval1_lin lm fsqrt w _ _ Ia Ex). destruct (value Linear (bits w) a) as [v|].
  - destruct Kx as (Hx & Ox & _ & Zx). destruct K as [[N ->]|[P K]].
    + apply (same_code w _ _ It). apply lin_nan. exact (f_equal is_finite (fsqrt_neg f80 x _ Hx N)).
    + destruct (Req_dec v 0) as [Z0|NZ].
      * apply (lin_near w _ (sqrt v) t K); rewrite Z0, sqrt_0; [rewrite (Zx Z0), RF_0; exact (FloatFacts.isf_zero f80)|tauto].
      * assert (0 < v) as P' by lra. pose proof (sqrt_bounds _ v Ox P') as [B1 B2]. apply (lin_near w _ (sqrt v) t K).
        -- apply isf_fsqrt; assumption.
        -- intros _. apply RF_nonzero; [discriminate|assumption].
  - apply (same_code w _ _ It). rewrite K, Kx. apply lin_nan. reflexivity.
Qed.
Lemma inv_lin_check : forall lm w a b, test_case (inversion_utb lm) w a b -> check_unary_binary_case (inversion_utb lm) a b Linear w = Val 0%Z.
Proof.
  intros lm w a b [Ia _]. cbn [check_unary_binary_case inversion_utb]. rewrite !to_s_same by assumption.
  destruct (inv_lin_faithful (bits w) _ (lin_inv_w w) a Ia) as (t & E & It & K). apply (finish_lin w _ _ t E It).
  { intros ->. unfold evaluate_takum, int64_takum_to_extended_float, int64_takum_from_extended_float. rewrite !to_s_same by assumption. reflexivity. }
  destruct (ld_operand w a Ia) as (x & Ex & Kx). rewrite (eval1_lin lm (fdiv (one f80)) w _ _ Ia Ex). destruct (value Linear (bits w) a) as [v|].
  - destruct Kx as (Hx & Ox & _ & Zx). destruct K as [[Z0 ->]|[NZ K]].
    + apply (same_code w _ _ It). rewrite (Zx Z0). apply lin_nan. reflexivity.
    + pose proof (inv_operand_bound _ v Ox NZ) as B. apply (lin_near w _ (/ v) t K).
      * replace (/ v) with (1 / v) by (unfold Rdiv; ring). apply (div80_isf (bits w)); [apply one_grid, w_std|assumption|assumption|apply (isf_1 f80)|assumption].
      * intros _. apply RF_nonzero; [discriminate|assumption].
  - apply (same_code w _ _ It). rewrite K, Kx. apply lin_nan. reflexivity.
Qed.
