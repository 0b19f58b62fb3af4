(** Conversions between logarithmic and linear takums. *)
From Coq Require Import ZArith Reals Bool Lia Lra.
From Flocq Require Import Core.Core IEEE754.BinarySingleNaN.
From Verif Require Import CModel FloatModel Libm LibmSpec Conversion Spec FloatSpec CodeFacts SpecFacts ValueFacts RoundFacts WidthConv WidthFacts WidthApi WidthProps FloatFacts DecodeFacts EncodeFacts PhiFacts Machine LogFacts LinApi LinFacts LinDec LinOps LinProps WrapApi NearFacts LogConv.
Local Open Scope R_scope.

(** the float in between *)
Definition mid (n m : Z) : fmt := if ((n =? 64) || (m =? 64))%Z%bool then f80 else f64.
Lemma log_to_linear_form : forall lm n m f, log_to_linear lm n m f -> exists h g, log_to_float lm n (mid n m) h /\ linear_from_float m (mid n m) g /\ forall t, f t = bind (h t) g.
Proof. intros lm n m f H. destruct H; (eexists; eexists; split; [constructor|split; [constructor|reflexivity]]). Qed.
Lemma linear_to_log_form : forall lm n m f, linear_to_log lm n m f -> exists h g, linear_to_float n (mid n m) h /\ log_from_float lm m (mid n m) g /\ forall t, f t = bind (h t) g.
Proof. intros lm n m f H. destruct H; (eexists; eexists; split; [constructor|split; [constructor|reflexivity]]). Qed.

Lemma mid_exact : forall n m, exact_pair n (mid n m).
Proof. intros n m. unfold mid, exact_pair. destruct (Z.eqb_spec n 64); [left; reflexivity|]. destruct (m =? 64)%Z; [left; reflexivity|right; auto]. Qed.
Lemma mid_not_32 : forall n m, mid n m = f32 -> False.
Proof. intros n m. unfold mid. destruct (_ || _)%bool; discriminate. Qed.

Theorem linear_to_log_faithful : forall lm n m f t x, c99 lm -> linear_to_log lm n m f -> is_intn n t -> value Linear n t = Some x ->
  exists t', f t = Val t' /\ rounds_faithfully Logarithmic m x t'.
Proof.
  intros lm n m f t x C H It Hx. destruct (linear_to_log_form _ _ _ _ H) as (h & g & Hh & Hg & E).
  destruct (lin_to_exact n _ h t Hh (mid_exact n m) It) as (y & Ey & Vy). rewrite Hx in Vy. destruct Vy as (Fy & <- & _).
  destruct (log_from_faithful lm m _ g y C Hg Fy) as (t' & Et & Rt). exists t'. split; [rewrite E, Ey; exact Et|assumption].
Qed.

Theorem linear_to_log_nar : forall lm n m f, linear_to_log lm n m f -> f (nar n) = Val (nar m).
Proof.
  intros lm n m f H. destruct (linear_to_log_form _ _ _ _ H) as (h & g & Hh & Hg & E). rewrite E, (linear_to_nar n _ h Hh). cbn [bind]. apply (log_from_nan lm m _ g); [assumption|reflexivity].
Qed.

Definition kind_err (n m : Z) (x : R) : R := bpow radix2 (if ((n =? 64) || (m =? 64))%Z%bool then -60 else -49) * (Rabs (log_coord x) + 1) * Rabs x.

Theorem log_to_linear_faithful : forall lm n m f t x, c99 lm -> log_to_linear lm n m f -> is_intn n t -> value Logarithmic n t = Some x ->
  exists t' z, f t = Val t' /\ Rabs (z - x) <= kind_err n m x /\ rounds_faithfully Linear m z t'.
Proof.
  intros lm n m f t x C H It Hx. destruct (log_to_linear_form _ _ _ _ H) as (h & g & Hh & Hg & E). rewrite E.
  destruct (Req_dec x 0) as [->|Nx].
  - assert (8 <= n <= 64)%Z as Hn by (destruct H; lia). destruct (takum_cases n t It) as [-> | [-> | Hr]].
    + rewrite (log_to_0 lm n _ h C Hh). cbn [bind]. destruct (lin_from_faithful m _ g (B754_zero false) Hg eq_refl) as (t' & Et & _ & Rt). exists t', 0. split; [assumption|]. split; [|assumption].
      unfold kind_err. rewrite Rminus_0_r, Rabs_R0. lra.
    + rewrite value_nar in Hx by lia. discriminate.
    + exfalso. rewrite value_log_real in Hx by (assumption || lia). injection Hx as Hx. pose proof (exp_pos (l_ n t / 2)). unfold sg in Hx. destruct (t <? 0)%Z; lra.
  - destruct (log_to_accurate lm n _ h t x C Hh Hx It Nx) as (y & Ey & Fy & Ay); [intros K; destruct (mid_not_32 n m K)|].
    destruct (lin_from_faithful m _ g y Hg Fy) as (t' & Et & _ & Rt). exists t', (B2R y). rewrite Ey. split; [assumption|]. split; [|assumption].
    unfold kind_err. replace (if ((n =? 64) || (m =? 64))%Z%bool then (-60)%Z else (-49)%Z) with (4 - fprec (mid n m))%Z by (unfold mid; destruct (_ || _)%bool; reflexivity). exact Ay.
Qed.

Theorem log_to_linear_nar : forall lm n m f, c99 lm -> log_to_linear lm n m f -> f (nar n) = Val (nar m).
Proof.
  intros lm n m f C H. destruct (log_to_linear_form _ _ _ _ H) as (h & g & Hh & Hg & E). rewrite E, (log_to_nar lm n _ h C Hh). cbn [bind].
  destruct (lin_from_specials m _ g B754_nan Hg) as (t & Et & _ & _ & Hi & _). rewrite Et. f_equal. apply Hi. reflexivity.
Qed.

(** ** Round trips through 64 bits of the other kind *)

Lemma ln_le : forall x y, 0 < x -> x <= y -> ln x <= ln y.
Proof. intros x y P [H|<-]; [left; apply ln_increasing; assumption|lra]. Qed.

(** ln Lin and its inverse are Lipschitz *)
Lemma ln_Lin_lt : forall a b, a <= b -> b - a <= / 2 -> ln (Lin b) - ln (Lin a) <= 2 * (b - a).
Proof.
  intros a b Hab Hd. pose proof (Lin_tangent a (Zfloor b)) as T. pose proof (Lin_bounds b) as [B1 B2]. pose proof (bpow_gt_0 radix2 (Zfloor b)) as P. pose proof (Lin_pos a) as Pa. pose proof (Lin_pos b) as Pb.
  set (d := b - a) in *. assert (Lin b * (1 - d) <= Lin a) as K.
  { unfold Lin at 1. unfold Lin in B1. set (h := bpow radix2 (Zfloor b)) in *. set (fl := IZR (Zfloor b)) in *. replace (1 + a - fl) with (1 + (b - fl) - d) in T by (unfold d; ring). assert (0 <= d * (b - fl) * h); [|lra]. apply Rmult_le_pos; [|lra]. apply Rmult_le_pos; [unfold d; lra|]. pose proof (Zfloor_lb b). unfold fl. lra. }
  assert (ln (Lin b) + ln (1 - d) <= ln (Lin a)) as L. { rewrite <- ln_mult by lra. apply ln_le; [nra|assumption]. }
  pose proof (ln_ge_sub (1 - d) ltac:(lra)) as M. assert (/ (1 - d) <= 1 + 2 * d) as I.
  { apply Rmult_le_reg_r with (1 - d); [lra|]. rewrite Rinv_l by lra. assert (0 <= d * (1 - 2 * d)) by (apply Rmult_le_pos; unfold d in *; lra). lra. }
  lra.
Qed.
Lemma ln_Lin_lip : forall a b, Rabs (b - a) <= / 2 -> Rabs (ln (Lin b) - ln (Lin a)) <= 2 * Rabs (b - a).
Proof.
  intros a b H. destruct (Rle_or_lt a b) as [L|L].
  - rewrite (Rabs_pos_eq (b - a)) in * by lra. rewrite Rabs_pos_eq; [apply ln_Lin_lt; lra|]. pose proof (ln_le (Lin a) (Lin b) (Lin_pos a) (Lin_le a b L)). lra.
  - rewrite (Rabs_left (b - a)) in * by lra. rewrite Rabs_minus_sym, Rabs_pos_eq; [replace (- (b - a)) with (a - b) by ring; apply ln_Lin_lt; lra|]. pose proof (ln_le (Lin b) (Lin a) (Lin_pos b) (Lin_le b a ltac:(lra))). lra.
Qed.
Lemma Lin_inv_lt : forall a b, a <= b -> ln (Lin b) - ln (Lin a) <= / 4 -> b - a <= 4 * (ln (Lin b) - ln (Lin a)).
Proof.
  intros a b Hab Hd. set (d := ln (Lin b) - ln (Lin a)) in *. pose proof (Lin_slope a b) as S. pose proof (Lin_bounds a) as [A1 A2]. rewrite bpow_plus in A2. change (bpow radix2 1) with 2 in A2. pose proof (Lin_pos a) as Pa. pose proof (Lin_pos b) as Pb.
  assert (0 <= d) as D0 by (unfold d; pose proof (ln_le (Lin a) (Lin b) Pa (Lin_le a b Hab)); lra).
  assert (Lin b = Lin a * exp d) as Eb. { unfold d, Rminus. rewrite exp_plus, exp_Ropp, !exp_ln by assumption. field. lra. }
  pose proof (exp_near d) as X. rewrite (Rabs_pos_eq d) in X by assumption. specialize (X ltac:(lra)). apply Rabs_le_inv in X.
  assert (exp d - 1 <= 2 * d) by nra. set (h := bpow radix2 (Zfloor a)) in *. assert (0 < h) by apply bpow_gt_0.
  apply Rmult_le_reg_r with h; [assumption|]. eapply Rle_trans; [exact S|]. rewrite Eb. assert (Lin a * (exp d - 1) <= 2 * h * (2 * d)) by (apply Rmult_le_compat; nra). lra.
Qed.
Lemma Lin_inv_lip : forall a b, Rabs (ln (Lin b) - ln (Lin a)) <= / 4 -> Rabs (b - a) <= 4 * Rabs (ln (Lin b) - ln (Lin a)).
Proof.
  intros a b H. destruct (Rle_or_lt a b) as [L|L].
  - pose proof (ln_le (Lin a) (Lin b) (Lin_pos a) (Lin_le a b L)). rewrite (Rabs_pos_eq (ln _ - _)) in * by lra. rewrite Rabs_pos_eq by lra. apply Lin_inv_lt; lra.
  - pose proof (ln_le (Lin b) (Lin a) (Lin_pos b) (Lin_le b a ltac:(lra))). rewrite (Rabs_left1 (ln _ - _)) in * by lra. rewrite Rabs_left by lra. replace (- (ln (Lin b) - ln (Lin a))) with (ln (Lin a) - ln (Lin b)) in * by ring. replace (- (b - a)) with (a - b) by ring. apply Lin_inv_lt; lra.
Qed.

(** a faithful rounding is near *)
Lemma cpm_step_le : forall n v, (6 <= n <= 64)%Z -> (0 <= v)%Z -> (v + 1 < 2 ^ (n - 1))%Z -> cpm n (v + 1) - cpm n v <= bpow radix2 (12 - n).
Proof.
  intros n v Hn V0 V1. destruct (u_split n Hn v ltac:(lia)) as (DR & y & Ev & Hy & HD).
  pose proof (cpm_affine n Hn DR y HD ltac:(lia) ltac:(lia)) as E1. pose proof (cpm_affine n Hn DR (y + 1) HD ltac:(lia) ltac:(lia)) as E2.
  replace (DR * 2 ^ (n - 5) + (y + 1))%Z with (v + 1)%Z in E2 by lia. rewrite <- Ev in E1. pose proof (regZ_bounds DR HD) as Hr.
  rewrite E1, E2, plus_IZR. replace (_ - _) with (bpow radix2 (regZ DR - (n - 5))) by ring. apply bpow_le. lia.
Qed.
Lemma faithful_near : forall n s L t, (n = 16 \/ n = 32 \/ n = 64)%Z -> Rabs L <= 254 -> faithful n s L t -> Rabs (l_ n t - L) <= bpow radix2 (12 - n).
Proof.
  intros n s L t Hn HL (Rt & St & Fa). pose proof (has_sign_ltb s t St ltac:(apply Rt)) as Es. pose proof (real_low_pos n t ltac:(lia) Rt) as Hu.
  rewrite l_sg_cpm in * by (assumption || lia). rewrite Es in *. set (u := low n t) in *. set (X := sg s * L).
  assert (L = sg s * X) as EL by (unfold X; rewrite <- Rmult_assoc, sg_sq; ring).
  assert (Rabs X <= 254) as HX by (unfold X; rewrite Rabs_mult, sg_abs; lra). apply Rabs_le_inv in HX.
  rewrite EL, <- Rmult_minus_distr_l, Rabs_mult, sg_abs, Rmult_1_l.
  assert (forall u', (0 < u' < 2 ^ (n - 1))%Z -> ~ (cpm n u < cpm n u' <= X) /\ ~ (X <= cpm n u' < cpm n u)) as K.
  { intros u' Hu'. pose proof (Fa (asm n s u') (asm_real n s u' Hu') (has_sign_asm n s u' Hu')) as [F1 F2]. rewrite l_asm in F1, F2 by (assumption || lia). rewrite EL in F1, F2. clear - F1 F2. unfold sg in *. destruct s; split; intros [A B]; (apply F1; lra) || (apply F2; lra). }
  assert (bpow radix2 (12 - n) <= / 16) as Hb. { replace (/ 16) with (bpow radix2 (-4)) by (cbn; lra). apply bpow_le. lia. }
  apply Rabs_le. split.
  - destruct (Z_lt_le_dec (u + 1) (2 ^ (n - 1))) as [H1|H1].
    + destruct (K (u + 1)%Z ltac:(lia)) as [K1 _]. pose proof (cpm_step_le n u ltac:(lia) ltac:(lia) H1). assert (cpm n u < cpm n (u + 1)) by (apply cpm_lt_iff; lia).
      destruct (Rle_or_lt (cpm n (u + 1)) X); [exfalso; apply K1; split; assumption|lra].
    + assert (u = umax n) as -> by (unfold umax; lia). rewrite cpm_umax_eq by lia. lra.
  - destruct (Z_lt_le_dec 0 (u - 1)) as [H1|H1].
    + destruct (K (u - 1)%Z ltac:(lia)) as [_ K1]. pose proof (cpm_step_le n (u - 1) ltac:(lia) ltac:(lia) ltac:(lia)) as K2. replace (u - 1 + 1)%Z with u in K2 by lia. assert (cpm n (u - 1) < cpm n u) by (apply cpm_lt_iff; lia).
      destruct (Rle_or_lt X (cpm n (u - 1))); [exfalso; apply K1; split; assumption|lra].
    + assert (u = 1)%Z as -> by lia. pose proof (cpm1_umax n ltac:(lia)) as K1. rewrite cpm_umax_eq in K1 by lia. lra.
Qed.

(** a float near a logarithmic takum becomes that takum *)
Lemma log_from_self : forall lm n F g (y : flt F) t p, c99 lm -> log_from_float lm n F g -> (n <= 32)%Z -> is_real_takum n t ->
  isf y (sg (t <? 0)%Z * p) -> 0 < p -> Rabs (2 * ln p - l_ n t) <= bpow radix2 (1 - n) * (Rabs (l_ n t) + 1) -> g y = Val t.
Proof.
  intros lm n F g y t p C Hg S Hr Hy P E2.
  assert (8 <= n <= 64)%Z as Hn by (destruct Hg; lia).
  assert (sg (t <? 0)%Z * p <> 0) as N0 by (unfold sg; destruct (t <? 0)%Z; lra).
  assert (Rlt_bool (sg (t <? 0)%Z * p) 0 = (t <? 0)%Z) as Es by (unfold sg; destruct (t <? 0)%Z; [apply Rlt_bool_true|apply Rlt_bool_false]; lra).
  assert (log_coord (sg (t <? 0)%Z * p) = 2 * ln p) as EL by (unfold log_coord; rewrite Rabs_mult, sg_abs, Rmult_1_l, Rabs_pos_eq by lra; reflexivity).
  destruct (log_from_inv _ _ _ _ Hg) as (m & K & ch & cg & eps & nw & Hm & Hps & Hch & Hcg & He & Hb & Hnw & Hf).
  rewrite Hf. rewrite (feq_isf y (fzero F) _ 0 Hy (FloatFacts.isf_zero F)), Req_bool_false by assumption.
  rewrite (fisfinite_isf y _ Hy). cbn [negb].
  destruct (log_enc_near lm m K F ch cg eps y _ C Hm Hps Hch Hcg He Hb Hy N0) as (L & T & -> & Nt & EL1). cbn [bind].
  rewrite Es in Nt. rewrite EL in EL1.
  pose proof (mo_range m Hm) as Hmn. set (d := bpow radix2 (2 - fprec K) + eps * (1 + bpow radix2 (2 - fprec K))) in *.
  set (l := l_ n t) in *. pose proof (Rabs_pos l) as L0.
  assert (Rabs (2 * ln p) <= Rabs l + Rabs (2 * ln p - l)) as B2 by (replace (2 * ln p) with (l + (2 * ln p - l)) at 1 by ring; apply Rabs_triang).
  assert (Rabs (L - l) <= d * Rabs (2 * ln p) + bpow radix2 (- m_n m) + Rabs (2 * ln p - l)) as EE.
  { replace (L - l) with ((L - 2 * ln p) + (2 * ln p - l)) by ring. eapply Rle_trans; [apply Rabs_triang|]. lra. }
  assert (d * Rabs (2 * ln p) <= bpow radix2 (2 - m_n m) * (Rabs l + Rabs (2 * ln p - l))) as DE.
  { eapply Rle_trans; [apply Rmult_le_compat_r; [apply Rabs_pos|exact Hb]|]. apply Rmult_le_compat_l; [apply bpow_ge_0|exact B2]. }
  set (b := bpow radix2 (- n)). assert (0 < b <= / 256) as Hb2. { split; [apply bpow_gt_0|]. replace (/ 256) with (bpow radix2 (-8)) by (simpl; lra). apply bpow_le. lia. }
  assert (bpow radix2 (1 - n) = 2 * b) as B4. { replace (1 - n)%Z with (1 + - n)%Z by lia. rewrite bpow_plus. fold b. simpl. lra. }
  assert (bpow radix2 (3 - n) = 8 * b) as B3. { replace (3 - n)%Z with (3 + - n)%Z by lia. rewrite bpow_plus. fold b. simpl. lra. }
  rewrite B4 in E2. set (z := Rabs (2 * ln p - l)) in *.
  assert (2 * b * (Rabs l + 1) <= / 128 * (Rabs l + 1)) as ZB by nra.
  destruct Hnw as [[Em ->]|(E6 & Hlt & HN)].
  - f_equal. rewrite Em in *. apply (near_self n ltac:(lia) t L); [assumption| |assumption]. fold l. rewrite B3.
    assert (bpow radix2 (2 - n) = 4 * b) as B5. { replace (2 - n)%Z with (2 + - n)%Z by lia. rewrite bpow_plus. fold b. simpl. lra. }
    rewrite B5 in DE. fold b in EE. assert (4 * b * z <= 4 * b * (/ 128 * (Rabs l + 1))) by (apply Rmult_le_compat_l; lra).
    pose proof (Rmult_le_pos b (Rabs l) ltac:(lra) L0). lra.
  - rewrite E6 in *. destruct Nt as (RT & ST & NT).
    destruct (widen_real n t ltac:(lia) Hr) as (W1 & W2 & W3).
    assert (has_sign (t <? 0)%Z (t * 2 ^ (64 - n))) as W4. { rewrite <- W2. unfold has_sign. destruct (Z.ltb_spec (t * 2 ^ (64 - n)) 0); [assumption|]. destruct W1. lia. }
    destruct (NT _ W1 W4) as [DT _]. rewrite W3 in DT. fold l in DT.
    apply narrowing_inv in HN as (HA & HB & _ & ->).
    destruct (reduce_real 64 n T HA HB Hlt RT) as (t' & -> & Nn & _). f_equal.
    rewrite (has_sign_ltb _ _ ST) in Nn by apply RT.
    apply (near_self n ltac:(lia) t (l_ 64 T)); [assumption| |assumption]. fold l. rewrite B3.
    replace (l_ 64 T - l) with ((l_ 64 T - L) + (L - l)) by ring. eapply Rle_lt_trans; [apply Rabs_triang|].
    rewrite (Rabs_minus_sym l) in DT. change (2 - 64)%Z with (-62)%Z in DE. change (- (64))%Z with (-64)%Z in EE.
    assert (bpow radix2 (-62) <= b / 2 ^ 20) as Q1.
    { replace (b / 2 ^ 20) with (bpow radix2 (-20 + - n)) by (rewrite bpow_plus; fold b; simpl; lra). apply bpow_le. lia. }
    assert (bpow radix2 (-64) <= b / 2 ^ 20) as Q2 by (simpl in *; lra).
    assert (bpow radix2 (-62) * (Rabs l + z) <= b / 2 ^ 20 * (Rabs l + (Rabs l + 1))) as Q3.
    { apply Rmult_le_compat; [apply bpow_ge_0| |assumption|lra]. assert (0 <= z) by apply Rabs_pos. lra. }
    pose proof (Rmult_le_pos b (Rabs l) ltac:(lra) L0). simpl in *. lra.
Qed.

(** a float near a linear takum becomes that takum *)
Lemma psi_close_from : forall n, psi_close (from_mach n).
Proof. intros n. unfold from_mach. destruct (n =? 8)%Z; [apply psi_close8|]. destruct (n =? 16)%Z; [apply psi_close16|]. destruct (n =? 32)%Z; [apply psi_close32|apply psi_close64]. Qed.
Lemma FF_sg : forall F s x, FF F x -> FF F (sg s * x).
Proof. intros F s x H. unfold sg. destruct s; [replace (-1 * x) with (- x) by ring; apply FF_opp; assumption|rewrite Rmult_1_l; assumption]. Qed.

Lemma RF_rel1 : forall F x, FF F x \/ bpow radix2 (- xe F) <= Rabs x -> Rabs (RF F x - x) <= bpow radix2 (- fprec F) * Rabs x.
Proof.
  intros F x [H|H]; [|apply RF_rel; assumption]. rewrite RF_id by assumption. replace (x - x) with 0 by ring. rewrite Rabs_R0. apply Rmult_le_pos; [apply bpow_ge_0|apply Rabs_pos].
Qed.
Lemma from_rho_near : forall n F g (y : flt F) x, linear_from_float n F g -> (F = f80 /\ n <= 32 \/ F = f64 /\ n <= 16)%Z -> isf y x -> x <> 0 ->
  FF (m_G (from_mach n)) (from_rho n F (lin_coord x)) /\ Rabs (from_rho n F (lin_coord x) - lin_coord x) <= bpow radix2 (-4 - n) * Rabs (lin_coord x).
Proof.
  intros n F g y x H HF Hy Nx. set (c := lin_coord x). pose proof (Rabs_pos c) as C0.
  destruct (lin_coord_dyadic F y x Hy Nx) as [k Hk]. fold c in Hk.
  assert (c = 0 \/ bpow radix2 (-63) <= Rabs c) as Hc.
  { destruct (Z.eq_dec k 0) as [->|Nk]; [left; rewrite Hk; ring|right]. rewrite Hk, Rabs_mult, (Rabs_pos_eq (bpow radix2 _)) by apply bpow_ge_0. rewrite <- (Rmult_1_l (bpow radix2 (-63))) at 1. apply Rmult_le_compat; [lra|apply bpow_ge_0| |].
    - rewrite <- abs_IZR. apply IZR_le. lia.
    - apply bpow_le. destruct HF as [[-> _]|[-> _]]; simpl; lia. }
  assert (forall G d, G = f32 \/ G = f64 -> d = 0 \/ bpow radix2 (-64) <= Rabs d -> Rabs (RF G d - d) <= bpow radix2 (- fprec G) * Rabs d) as E2.
  { intros G d HG Hd. apply (RF_rel1 G). destruct Hd as [->|Hd]; [left; apply generic_format_0|right]. eapply Rle_trans; [|exact Hd]. apply bpow_le. destruct HG as [-> | ->]; simpl; lia. }
  assert (c = 0 \/ bpow radix2 (-64) <= Rabs c) as Hc' by (destruct Hc as [|Hc]; [left; assumption|right; eapply Rle_trans; [|exact Hc]; apply bpow_le; lia]).
  destruct HF as [[-> Hn]|[-> Hn]].
  - assert (Rabs (RF f80 c - c) <= bpow radix2 (-64) * Rabs c) as E1.
    { apply (RF_rel1 f80). destruct Hc as [->|Hc]; [left; apply generic_format_0|right]. eapply Rle_trans; [|exact Hc]. apply bpow_le. simpl. lia. }
    set (d := RF f80 c) in *.
    assert (d = 0 \/ bpow radix2 (-64) <= Rabs d) as Hd.
    { destruct Hc as [Hc|Hc]; [left; unfold d; rewrite Hc; apply RF_0|right]. assert (Rabs c <= Rabs d + Rabs (d - c)). { replace c with (d + - (d - c)) at 1 by ring. eapply Rle_trans; [apply Rabs_triang|]. rewrite Rabs_Ropp. lra. } simpl in *. lra. }
    assert (Rabs d <= Rabs c + Rabs (d - c)) as Bd by (replace d with (c + (d - c)) at 1 by ring; apply Rabs_triang).
    assert (forall G, G = f32 \/ G = f64 -> Rabs (RF G d - c) <= (bpow radix2 (- fprec G) * 2 + bpow radix2 (-64)) * Rabs c) as E3.
    { intros G HG. specialize (E2 G d HG Hd). replace (RF G d - c) with ((RF G d - d) + (d - c)) by ring. eapply Rle_trans; [apply Rabs_triang|].
      assert (Rabs d <= 2 * Rabs c) as B' by (simpl in E1; lra).
      pose proof (Rmult_le_compat_l (bpow radix2 (- fprec G)) _ _ (bpow_ge_0 _ _) B'). lra. }
    inversion H; subst; cbn [from_rho from_mach Z.eqb Pos.eqb m_G mach8 mach16 mach32]; fold d; try lia; (split; [apply RF_FF|]).
    + eapply Rle_trans; [apply (E3 f32); left; reflexivity|]. apply Rmult_le_compat_r; [assumption|]. simpl. lra.
    + eapply Rle_trans; [apply (E3 f64); right; reflexivity|]. apply Rmult_le_compat_r; [assumption|]. simpl. lra.
    + eapply Rle_trans; [exact E1|]. apply Rmult_le_compat_r; [assumption|]. simpl. lra.
  - inversion H; subst; cbn [from_rho from_mach Z.eqb Pos.eqb m_G mach8 mach16 mach32]; try lia; (split; [apply RF_FF|]).
    + eapply Rle_trans; [apply (E2 f32 c); [left; reflexivity|assumption]|]. apply Rmult_le_compat_r; [assumption|]. simpl. lra.
    + eapply Rle_trans; [apply (E2 f64 c); [right; reflexivity|assumption]|]. apply Rmult_le_compat_r; [assumption|]. simpl. lra.
Qed.

Lemma lin_from_self : forall n F g (y : flt F) t p, linear_from_float n F g -> (F = f80 /\ n <= 32 \/ F = f64 /\ n <= 16)%Z -> is_real_takum n t ->
  isf y (sg (t <? 0)%Z * p) -> 0 < p -> Rabs (lin_coord p - l_ n t) <= bpow radix2 (1 - n) * (Rabs (l_ n t) + 1) -> g y = Val t.
Proof.
  intros n F g y t p Hg HF Hr Hy P E2.
  pose proof (std_range n (from_std _ _ _ Hg)) as Hn.
  assert (sg (t <? 0)%Z * p <> 0) as N0 by (unfold sg; destruct (t <? 0)%Z; lra).
  assert (Rlt_bool (sg (t <? 0)%Z * p) 0 = (t <? 0)%Z) as Es by (unfold sg; destruct (t <? 0)%Z; [apply Rlt_bool_true|apply Rlt_bool_false]; lra).
  assert (lin_coord (sg (t <? 0)%Z * p) = lin_coord p) as EL by (unfold sg; destruct (t <? 0)%Z; [rewrite <- (lin_coord_opp p)|]; f_equal; ring).
  destruct (from_rho_near n F g y _ Hg HF Hy N0) as [FR ER]. rewrite EL in FR, ER.
  destruct (linear_from_form _ _ _ Hg) as (Hm & Hmn & Hrho & Hf & _). rewrite (Hf y _ Hy N0), Es, EL. f_equal.
  set (s := (t <? 0)%Z) in *. set (r := from_rho n F (lin_coord p)) in *.
  pose proof (psi_close_from n (sg s * r) (FF_sg _ s r FR)) as EP. rewrite Hmn in EP.
  set (M := m_psi (from_mach n) (sg s * r)) in *.
  apply (near_self n ltac:(lia) t (sg s * M)); [assumption| |].
  2: { replace M with (sg s * (sg s * M)) at 2 by (unfold sg; destruct s; ring). apply enc_nearest_sg. lia. }
  set (l := l_ n t) in *. set (c := lin_coord p) in *. set (b := bpow radix2 (- n)) in *.
  assert (0 < b <= / 256) as Hb2. { split; [apply bpow_gt_0|]. replace (/ 256) with (bpow radix2 (-8)) by (simpl; lra). apply bpow_le. lia. }
  assert (bpow radix2 (-4 - n) = b / 16) as B4. { replace (-4 - n)%Z with (-4 + - n)%Z by lia. rewrite bpow_plus. fold b. simpl. lra. }
  assert (bpow radix2 (3 - n) = 8 * b) as B3. { replace (3 - n)%Z with (3 + - n)%Z by lia. rewrite bpow_plus. fold b. simpl. lra. }
  assert (bpow radix2 (1 - n) = 2 * b) as B1. { replace (1 - n)%Z with (1 + - n)%Z by lia. rewrite bpow_plus. fold b. simpl. lra. }
  rewrite B3. rewrite B4 in ER. rewrite B1 in E2.
  assert (Rabs (sg s * M - r) <= b) as EM. { replace (sg s * M - r) with (sg s * (M - sg s * r)) by (unfold sg; destruct s; ring). rewrite Rabs_mult, sg_abs, Rmult_1_l. exact EP. }
  replace (sg s * M - l) with ((sg s * M - r) + ((r - c) + (c - l))) by ring.
  pose proof (Rabs_triang (sg s * M - r) ((r - c) + (c - l))). pose proof (Rabs_triang (r - c) (c - l)).
  assert (Rabs c <= Rabs l + Rabs (c - l)) as Bc by (replace c with (l + (c - l)) at 1 by ring; apply Rabs_triang).
  pose proof (Rabs_pos l) as L0. pose proof (Rmult_le_pos b (Rabs l) ltac:(lra) L0).
  assert (2 * b * (Rabs l + 1) <= / 128 * (Rabs l + 1)) by (apply Rmult_le_compat_r; lra).
  assert (b / 16 * Rabs c <= b / 16 * (Rabs l + / 128 * (Rabs l + 1))) by (apply Rmult_le_compat_l; lra). lra.
Qed.

Lemma mid_wide : forall n m, (n <= m)%Z -> (n <= 64 /\ m <= 64)%Z -> mid n m = if (m =? 64)%Z then f80 else f64.
Proof. intros n m H K. unfold mid. destruct (Z.eqb_spec n 64) as [->|]; [|reflexivity]. assert (m = 64)%Z as -> by lia. reflexivity. Qed.
Lemma mid_sym : forall n m, mid n m = mid m n.
Proof. intros n m. unfold mid. rewrite Bool.orb_comm. reflexivity. Qed.

Lemma lin_coord_sg : forall s p, lin_coord (sg s * p) = lin_coord p.
Proof. intros s p. unfold sg. destruct s; [rewrite <- (lin_coord_opp p)|]; f_equal; ring. Qed.
Lemma Rlt_bool_sg : forall s p, 0 < p -> Rlt_bool (sg s * p) 0 = s.
Proof. intros s p P. unfold sg. destruct s; [apply Rlt_bool_true|apply Rlt_bool_false]; lra. Qed.
Lemma sg_ne0 : forall s p, 0 < p -> sg s * p <> 0.
Proof. intros s p P. unfold sg. destruct s; lra. Qed.
Lemma log_coord_sg : forall s p, 0 < p -> log_coord (sg s * p) = 2 * ln p.
Proof. intros s p P. unfold log_coord. rewrite Rabs_mult, sg_abs, Rmult_1_l, Rabs_pos_eq by lra. reflexivity. Qed.


Lemma coord_254 : forall p, 0 < p -> Rabs (2 * ln p) <= 256 -> Rabs (lin_coord p) <= 254.
Proof.
  intros p P H. apply Rabs_le_inv in H. destruct (lin_coord_strict p 254 ltac:(lra)) as [H1 H2]; [|apply Rabs_le; lra]. rewrite Rabs_pos_eq by lra.
  assert (exp (ln p) <= bpow radix2 186) as U by (apply exp_ln2_le; [lra|lia]).
  assert (exp (- ln p) <= bpow radix2 186) as D by (apply exp_ln2_le; [lra|lia]).
  rewrite exp_Ropp, exp_ln in D by assumption. rewrite exp_ln in U by assumption. split.
  - apply Rlt_le_trans with (bpow radix2 (-186)); [apply bpow_lt; lia|]. rewrite <- (Rinv_inv p). change (-186)%Z with (- (186))%Z. rewrite bpow_opp. apply Rinv_le; [apply Rinv_0_lt_compat; assumption|exact D].
  - eapply Rle_lt_trans; [exact U|]. apply bpow_lt. lia.
Qed.

(** a logarithmic takum through a wider linear takum *)
Theorem log_linear_log : forall lm n m f g t, c99 lm -> log_to_linear lm n m f -> linear_to_log lm m n g -> (n < m)%Z -> (32 <= m)%Z -> is_intn n t ->
  exists t', f t = Val t' /\ g t' = Val t.
Proof.
  intros lm n m f g t C Hf Hg Lt Hm It.
  assert (8 <= n <= 32 /\ (m = 32 /\ n <= 16 \/ m = 64))%Z as (Hn & Hm2) by (destruct Hf; lia).
  destruct (takum_cases n t It) as [-> | [-> | Hr]].
  { exists 0%Z. destruct (log_to_linear_form _ _ _ _ Hf) as (h & k & Hh & Hk & E). rewrite E, (log_to_0 lm n _ h C Hh). cbn [bind].
    destruct (linear_from_form _ _ _ Hk) as (_ & _ & _ & _ & Hz & _). split; [apply Hz|].
    destruct (linear_to_log_form _ _ _ _ Hg) as (h2 & k2 & Hh2 & Hk2 & E2). rewrite E2, (linear_to_0 _ _ _ Hh2). cbn [bind]. apply (log_from_0 lm n _ k2 _ Hk2). }
  { exists (nar m). split; [apply (log_to_linear_nar lm n m f C Hf)|apply (linear_to_log_nar lm m n g Hg)]. }
  destruct (log_to_linear_form _ _ _ _ Hf) as (h & k & Hh & Hk & E). rewrite E.
  destruct (log_to_acc lm n _ h t C Hh Hr) as (y & p & Eh & Hy & P & A); [intros K; destruct (mid_not_32 n m K)|]. rewrite Eh. cbn [bind].
  destruct (lin_from_faithful m _ k y Hk (proj1 Hy)) as (t' & Et & It' & Rt). exists t'. split; [assumption|].
  rewrite (proj2 Hy) in Rt. destruct Rt as [[K _]|[_ Rt]]; [destruct (sg_ne0 _ _ P K)|]. cbn [coord] in Rt. rewrite lin_coord_sg, (Rlt_bool_sg _ _ P) in Rt.
  pose proof (l_abs n t ltac:(lia) Hr) as Bl. set (l := l_ n t) in *.
  assert (Rabs (2 * ln p - l) <= bpow radix2 (-49) * (Rabs l + 1)) as A'.
  { eapply Rle_trans; [exact A|]. apply Rmult_le_compat_r; [pose proof (Rabs_pos l); lra|]. apply bpow_le. unfold mid. destruct (_ || _)%bool; simpl; lia. }
  assert (Rabs (2 * ln p) <= 256) as B2. { assert (Rabs (2 * ln p) <= Rabs l + Rabs (2 * ln p - l)) by (replace (2 * ln p) with (l + (2 * ln p - l)) at 1 by ring; apply Rabs_triang). simpl in A'. lra. }
  pose proof (faithful_near m _ _ t' ltac:(lia) (coord_254 p P B2) Rt) as NT. destruct Rt as (Rt & St & _). pose proof (has_sign_ltb _ t' St ltac:(apply Rt)) as Es.
  destruct (linear_to_log_form _ _ _ _ Hg) as (h2 & k2 & Hh2 & Hk2 & E2). rewrite E2.
  destruct (lin_to_exact m _ h2 t' Hh2 (mid_exact m n) It') as (y2 & Ey2 & Hy2). rewrite Ey2. cbn [bind].
  rewrite value_real in Hy2 by (assumption || lia). destruct Hy2 as (F2 & V2 & _).
  apply (log_from_self lm n _ k2 y2 t (Lin (l_ m t')) C Hk2 ltac:(lia) Hr); [split; [assumption|]; rewrite V2, Es; reflexivity|apply Lin_pos|]. fold l.
  pose proof (ln_Lin_lip (lin_coord p) (l_ m t')) as LL. rewrite (Lin_lin_coord p) in LL by lra. rewrite (Rabs_pos_eq p) in LL by lra.
  set (l2 := l_ m t') in *. set (b := bpow radix2 (12 - m)) in *.
  assert (bpow radix2 (12 - m) <= bpow radix2 (-4 - n)) as Bb by (apply bpow_le; lia). fold b in Bb.
  assert (bpow radix2 (-4 - n) = bpow radix2 (1 - n) / 32) as Bc. { replace (1 - n)%Z with (5 + (-4 - n))%Z by lia. rewrite bpow_plus. change (bpow radix2 5) with 32. lra. }
  assert (bpow radix2 (-49) <= bpow radix2 (1 - n) / 32) as Bd. { rewrite <- Bc. apply bpow_le. lia. }
  set (q := bpow radix2 (1 - n)) in *. assert (q <= / 128). { replace (/ 128) with (bpow radix2 (-7)) by (simpl; lra). apply bpow_le. lia. }
  assert (0 < q) by apply bpow_gt_0. specialize (LL ltac:(lra)).
  replace (2 * ln (Lin l2) - l) with (2 * (ln (Lin l2) - ln p) + (2 * ln p - l)) by ring. eapply Rle_trans; [apply Rabs_triang|]. rewrite Rabs_mult, (Rabs_pos_eq 2) by lra.
  pose proof (Rabs_pos l). assert (bpow radix2 (-49) * (Rabs l + 1) <= q / 32 * (Rabs l + 1)) by (apply Rmult_le_compat_r; lra).
  pose proof (Rmult_le_pos q (Rabs l) ltac:(lra) ltac:(lra)). lra.
Qed.

(** a linear takum through a wider logarithmic takum *)
Theorem linear_log_linear : forall lm n m f g t x, c99 lm -> linear_to_log lm n m f -> log_to_linear lm m n g -> (n < m)%Z -> (32 <= m)%Z -> is_intn n t ->
  value Linear n t = Some x -> Rabs (log_coord x) <= 254 ->
  exists t', f t = Val t' /\ g t' = Val t.
Proof.
  intros lm n m f g t x C Hf Hg Lt Hm It Hx Hl.
  assert (8 <= n <= 32 /\ (m = 32 /\ n <= 16 \/ m = 64))%Z as (Hn & Hm2) by (destruct Hf; lia).
  destruct (linear_to_log_faithful lm n m f t x C Hf It Hx) as (t' & Et & Rt). exists t'. split; [assumption|].
  destruct (log_to_linear_form _ _ _ _ Hg) as (h & k & Hh & Hk & E). rewrite E.
  destruct (takum_cases n t It) as [-> | [-> | Hr]].
  { rewrite value_0 in Hx. injection Hx as <-. destruct Rt as [[_ ->]|[K _]]; [|lra]. rewrite (log_to_0 lm m _ h C Hh). cbn [bind].
    destruct (linear_from_form _ _ _ Hk) as (_ & _ & _ & _ & Hz & _). apply Hz. }
  { rewrite value_nar in Hx by lia. discriminate. }
  rewrite value_real in Hx by (assumption || lia). cbn [ValueFacts.E] in Hx. fold (sg (t <? 0)%Z) in Hx. assert (x = sg (t <? 0)%Z * Lin (l_ n t)) as -> by congruence. clear Hx.
  pose proof (Lin_pos (l_ n t)) as P. rewrite log_coord_sg in Hl by assumption.
  destruct Rt as [[K _]|[_ Rt]]; [destruct (sg_ne0 _ _ P K)|]. cbn [coord] in Rt. rewrite (log_coord_sg _ _ P), (Rlt_bool_sg _ _ P) in Rt.
  pose proof (faithful_near m _ _ t' ltac:(lia) Hl Rt) as NT. destruct Rt as (Rt & St & _). pose proof (has_sign_ltb _ t' St ltac:(apply Rt)) as Es.
  destruct (log_to_acc lm m _ h t' C Hh Rt) as (y & p & Eh & Hy & Pp & A); [intros K; destruct (mid_not_32 m n K)|]. rewrite Eh. cbn [bind]. rewrite Es in Hy.
  pose proof (l_abs m t' ltac:(lia) Rt) as Bl. set (l' := l_ m t') in *. set (l := l_ n t) in *.
  apply (lin_from_self n _ k y t p Hk); [|assumption|assumption|assumption|].
  { rewrite mid_sym, mid_wide by lia. destruct (Z.eqb_spec m 64); [left; split; [reflexivity|lia]|right; split; [reflexivity|lia]]. }
  fold l. pose proof (Lin_inv_lip l (lin_coord p)) as LL. rewrite (Lin_lin_coord p) in LL by lra. rewrite (Rabs_pos_eq p) in LL by lra.
  set (q := bpow radix2 (1 - n)). assert (0 < q) by apply bpow_gt_0.
  assert (q <= / 128). { replace (/ 128) with (bpow radix2 (-7)) by (simpl; lra). apply bpow_le. lia. }
  assert (bpow radix2 (12 - m) <= q / 32) as Bb. { replace (q / 32) with (bpow radix2 (-4 - n)); [apply bpow_le; lia|]. unfold q. replace (1 - n)%Z with (5 + (-4 - n))%Z by lia. rewrite bpow_plus. change (bpow radix2 5) with 32. lra. }
  assert (bpow radix2 (4 - fprec (mid m n)) * (Rabs l' + 1) <= q / 32) as Bd.
  { apply Rle_trans with (bpow radix2 (4 - fprec (mid m n)) * bpow radix2 8); [apply Rmult_le_compat_l; [apply bpow_ge_0|simpl; lra]|]. rewrite <- bpow_plus.
    replace (q / 32) with (bpow radix2 (-4 - n)); [|unfold q; replace (1 - n)%Z with (5 + (-4 - n))%Z by lia; rewrite bpow_plus; change (bpow radix2 5) with 32; lra].
    apply bpow_le. assert (53 <= fprec (mid m n))%Z by (unfold mid; destruct (_ || _)%bool; simpl; lia). lia. }
  assert (Rabs (2 * (ln p - ln (Lin l))) <= q / 16) as D.
  { replace (2 * (ln p - ln (Lin l))) with ((2 * ln p - l') + (l' - 2 * ln (Lin l))) by ring. eapply Rle_trans; [apply Rabs_triang|]. lra. }
  rewrite Rabs_mult, (Rabs_pos_eq 2) in D by lra. specialize (LL ltac:(lra)). pose proof (Rabs_pos l). pose proof (Rmult_le_pos q (Rabs l) ltac:(lra) ltac:(lra)). lra.
Qed.
