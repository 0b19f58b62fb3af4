(** Accuracy of the functions of one argument. *)
From Coq Require Import ZArith Reals Bool Lia Lra Psatz.
From Flocq Require Import Core.Core IEEE754.BinarySingleNaN.
From Verif Require Import CModel FloatModel Libm LibmSpec Spec Conversion Wrappers WrapSpec FloatFacts RoundFacts RealBounds LogConv FloatAcc RealFacts FixFacts.
Local Open Scope R_scope.

Definition L80 : fmt := f80.
Lemma w80 : wide f80. Proof. right. reflexivity. Qed.
Lemma w64 : wide f64. Proof. left. reflexivity. Qed.

(** ** Arguments *)
Lemma arg_order : forall v a, arg v a -> (a = 0 <-> v = 0) /\ (0 < a <-> 0 < v) /\ (a < 0 <-> v < 0) /\
  (a < 1 <-> v < 1) /\ (a = 1 <-> v = 1) /\ (1 < a <-> 1 < v) /\ (a < -1 <-> v < -1) /\ (a = -1 <-> v = -1) /\ (-1 < a <-> -1 < v).
Proof.
  intros v a [H1 H2 H3 H4].
  assert (bpow radix2 (-56) <= / 4) as B by (replace (/ 4) with (bpow radix2 (-2)) by (simpl; lra); apply bpow_le; lia). pose proof (bpow_gt_0 radix2 (-56)) as P.
  assert (forall c, Rcompare a c = Rcompare v c -> (a < c <-> v < c) /\ (a = c <-> v = c) /\ (c < a <-> c < v)) as K.
  { intros c H. destruct (Rcompare_spec a c), (Rcompare_spec v c); try discriminate; lra. }
  assert ((a < 0 <-> v < 0) /\ (a = 0 <-> v = 0) /\ (0 < a <-> 0 < v)) as K0.
  { destruct (Rtotal_order v 0) as [Q|[Q|Q]].
    - rewrite (Rabs_left v) in H1 by assumption. apply Rabs_le_inv in H1. nra.
    - subst v. rewrite Rabs_R0, Rmult_0_r, Rminus_0_r in H1. assert (a = 0) by (destruct (Req_dec a 0) as [E|E]; [exact E|apply Rabs_pos_lt in E; lra]). lra.
    - rewrite (Rabs_pos_eq v) in H1 by lra. apply Rabs_le_inv in H1. nra. }
  pose proof (K 1 H3). pose proof (K (-1) H4). tauto.
Qed.
Lemma arg_cases' : forall v a, arg v a -> a = 0 \/ win 260 a.
Proof. intros v a H. destruct (arg_order v a H) as (E & _). destruct H as [_ [H|H] _ _]; [left; apply E; assumption|right; assumption]. Qed.
Lemma arg_cases : forall v a, arg v a -> a = 0 \/ win 300 a.
Proof. intros v a H. destruct (arg_cases' v a H) as [K|K]; [left; assumption|right; eapply win_weaken; [eassumption|lia]]. Qed.
Lemma abs_ge_1 : forall x, 1 <= Rabs x <-> x <= -1 \/ 1 <= x.
Proof. intros x. unfold Rabs. destruct (Rcase_abs x); lra. Qed.
Lemma abs_gt_1 : forall x, 1 < Rabs x <-> x < -1 \/ 1 < x.
Proof. intros x. unfold Rabs. destruct (Rcase_abs x); lra. Qed.
Lemma def_arg : forall u v a, arg v a -> trigonometric u = false -> defined u v -> defined u a.
Proof.
  intros u v a H T. pose proof (arg_order v a H) as O. destruct u; try discriminate T; cbn [defined]; rewrite ?abs_ge_1, ?abs_gt_1; lra.
Qed.
Lemma app_def : forall k u x, trigonometric u = false -> applicable k u x -> defined u x.
Proof. intros k u x T H. destruct u; try discriminate T; exact H. Qed.
Lemma argument_error_rng : forall u, 0 <= argument_error u <= bpow radix2 (-51).
Proof. intros u. pose proof (bpow_ge_0 radix2 (-51)). destruct u; cbn [argument_error]; try lra; (split; [apply bpow_ge_0|apply bpow_le; lia]). Qed.
Lemma arg_self_dist : forall u a, Rabs (a - a) <= argument_error u * Rabs a.
Proof. intros u a. rewrite Rminus_eq_0, Rabs_R0. apply Rmult_le_pos; [apply argument_error_rng|apply Rabs_pos]. Qed.
Lemma spread_log : forall u v a x', arg v a -> Rabs (x' - a) <= argument_error u * Rabs a -> Rabs (x' - v) <= spread Logarithmic u * Rabs v.
Proof.
  intros u v a x' [H _ _ _] D. unfold spread. cbn [conversion_error]. pose proof (argument_error_rng u) as [P1 P2]. set (d := argument_error u) in *. set (q := bpow radix2 (-56)) in *.
  assert (0 < q) as Pq by apply bpow_gt_0. assert (bpow radix2 (-55) = 2 * q) as -> by (unfold q; change (-55)%Z with (1 + -56)%Z; rewrite bpow_plus; reflexivity).
  assert (d <= 1) as D1 by (eapply Rle_trans; [exact P2|]; apply (bpow_le radix2 (-51) 0); lia).
  pose proof (Rabs_triang (x' - a) (a - v)) as T1. replace (x' - a + (a - v)) with (x' - v) in T1 by ring.
  pose proof (Rabs_triang (a - v) v) as T2. replace (a - v + v) with a in T2 by ring. pose proof (Rabs_pos v) as Pv.
  assert (d * Rabs a <= d * (q * Rabs v + Rabs v)) by (apply Rmult_le_compat_l; lra).
  assert (d * (q * Rabs v) <= 1 * (q * Rabs v)) by (apply Rmult_le_compat_r; [apply Rmult_le_pos; lra|lra]). lra.
Qed.
Lemma spread_lin : forall u v x', Rabs (x' - v) <= argument_error u * Rabs v -> Rabs (x' - v) <= spread Linear u * Rabs v.
Proof. intros u v x' D. unfold spread. cbn [conversion_error]. rewrite Rplus_0_r. assumption. Qed.

Section Core.
Variable lm : libm.
Hypothesis C : c99 lm.

(** the result is accurate for an argument close to the given one *)
Definition core (u : unary_name) (n : Z) (e : R) (F : fmt) (fl : flt F -> flt F) : Prop :=
  forall k x a v, isf x a -> (a = 0 -> x = B754_zero false) -> arg v a ->
  Rabs (a - v) <= conversion_error k * Rabs v -> regular k n u v -> exists x',
    Rabs (x' - a) <= argument_error u * Rabs a /\ defined u x' /\ near e 850 F (real_fun u x') (fl x) /\ side u a (real_fun u x').

Lemma core_simple : forall u n e F fl, trigonometric u = false ->
  (forall x a, isf x a -> FF F a -> (a = 0 -> x = B754_zero false) -> a = 0 \/ win 300 a -> defined u a -> near e 850 F (real_fun u a) (fl x) /\ side u a (real_fun u a)) -> core u n e F fl.
Proof.
  intros u n e F fl T H k x a v Ix Z0 A _ (D & _). exists a. pose proof (def_arg u v a A T (app_def k u v T D)) as D'.
  destruct (H x a Ix (isf_FF _ _ _ Ix) Z0 (arg_cases v a A) D') as [N S]. split; [apply arg_self_dist|]. split; [assumption|]. split; assumption.
Qed.

(** the error of a library function *)
Definition e1 (F : fmt) : R := bpow radix2 (3 - fprec F).
Lemma lib_near : forall g F (x : flt F) a R_, wide F -> isf x a -> dom1 g a -> real1 g a = R_ -> near (e1 F) 850 F R_ (m1 lm g x).
Proof.
  intros g F x a R_ W [Fx Vx] D <-. pose proof (c_in lm C g F x Fx) as K. rewrite Vx in K. specialize (K D).
  apply close_near in K; [|assumption|destruct g; simpl; lia]. eapply near_weaken; [exact K| |lia]. apply bpow_le. destruct g; cbn [acc1]; lia.
Qed.

Lemma win9 : forall h R_, (h <= 900)%Z -> win h R_ -> win 900 R_.
Proof. intros. eapply win_weaken; eassumption. Qed.
Lemma side_win : forall u a R_ h, (h <= 900)%Z -> win h R_ -> side u a R_.
Proof. intros u a R_ h Hh H. right. left. eapply win_weaken; eassumption. Qed.
Lemma side_0 : forall u a R_, low_ok u = false -> R_ = 0 -> side u a R_.
Proof. intros u a R_ Hl ->. left. split; [reflexivity|assumption]. Qed.
Lemma side_pos : forall u a R_, u <> n_csch -> low_ok u = true -> high_ok u = true -> 0 < R_ -> side u a R_.
Proof.
  intros u a R_ Nu Hl Hh P. destruct (Rlt_or_le (Rabs R_) (bpow radix2 (-900))) as [K|K]; [right; right; left; split; [apply Rgt_not_eq; assumption|split; [assumption|split; [assumption|split; [intros E; contradiction|intros _; assumption]]]]|].
  destruct (Rle_or_lt (Rabs R_) (bpow radix2 900)) as [K'|K']; [right; left; split; assumption|right; right; right; repeat split; auto].
Qed.
Lemma side_high : forall u a R_, high_ok u = true -> bpow radix2 (-900) <= Rabs R_ -> (u <> n_sinh -> bpow radix2 900 < Rabs R_ -> 0 < R_) -> side u a R_.
Proof.
  intros u a R_ Hh H P. destruct (Rle_or_lt (Rabs R_) (bpow radix2 900)) as [K'|K']; [right; left; split; assumption|right; right; right; repeat split; auto].
Qed.
Lemma b305 : bpow radix2 (-900) <= bpow radix2 (-305).
Proof. apply bpow_le. lia. Qed.
Lemma r_win : forall a h, a = 0 -> forall f : R -> R, f 0 = 0 -> f a = 0 \/ win h (f a).
Proof. intros a h -> f H. left. assumption. Qed.


(** ** Functions that are a library function *)
Definition dir (u : unary_name) : option fun1 :=
  match u with
  | n_exp => Some Fexp | n_exp_minus_1 => Some Fexpm1 | n_2_raised => Some Fexp2
  | n_ln => Some Flog | n_ln_1_plus => Some Flog1p | n_lb => Some Flog2 | n_lg => Some Flog10
  | n_arcsin => Some Fasin | n_arccos => Some Facos | n_arctan => Some Fatan
  | n_sinh => Some Fsinh | n_cosh => Some Fcosh | n_tanh => Some Ftanh
  | n_arsinh => Some Fasinh | n_arcosh => Some Facosh | n_artanh => Some Fatanh
  | _ => None
  end.
Lemma dir_dom : forall u g a, dir u = Some g -> defined u a -> dom1 g a /\ real1 g a = real_fun u a.
Proof.
  intros u g a H D. destruct u; try discriminate H; injection H as <-; cbn [dom1 real1 real_fun defined] in *; split; try assumption; try exact I; try reflexivity.
  unfold arcsinh. repeat f_equal. ring.
Qed.
Lemma ln_side : forall F a c, wide F -> FF F a -> 0 < a -> win 300 a -> / 16 <= c <= 16 -> ln a / c = 0 \/ win 305 (ln a / c).
Proof.
  intros F a c W HF P H Hc. destruct (ln_win F a W HF P H) as [-> | K]; [left; unfold Rdiv; ring|right].
  exact (win_div 300 5 _ _ K (win_of c Hc)).
Qed.
Lemma side_or : forall u a R_ h, (h <= 900)%Z -> low_ok u = false -> R_ = 0 \/ win h R_ -> side u a R_.
Proof. intros u a R_ h Hh Hl [H|H]; [apply side_0; assumption|eapply side_win; eassumption]. Qed.

Lemma dir_side : forall u g F a, dir u = Some g -> wide F -> FF F a -> a = 0 \/ win 300 a -> defined u a -> side u a (real_fun u a).
Proof.
  intros u g F a Hg W HF Hr D. pose proof b305 as B.
  destruct u; try discriminate Hg; cbn [defined real_fun] in *.
  - apply side_pos; [discriminate|reflexivity|reflexivity|apply exp_pos].
  - destruct Hr as [-> | Hr]; [apply side_0; [reflexivity|rewrite exp_0; ring]|]. pose proof (expm1_lower a Hr). apply side_high; [reflexivity|lra|].
    intros _ K. pose proof (exp_pos a). destruct (Rle_or_lt (exp a) 1) as [Q|Q]; [|lra]. rewrite Rabs_left1 in K by lra. assert (1 < bpow radix2 900) by (apply (bpow_lt radix2 0 900); lia). lra.
  - apply side_pos; [discriminate|reflexivity|reflexivity|apply exp_pos].
  - destruct Hr as [-> | Hr]; [lra|]. apply (side_or _ _ _ 300); [lia|reflexivity|]. eapply ln_win; eassumption.
  - destruct Hr as [-> | Hr]; [apply side_0; [reflexivity|rewrite Rplus_0_r; apply ln_1]|]. eapply (side_win _ _ _ 305); [lia|]. eapply ln1p_win; eassumption.
  - destruct Hr as [-> | Hr]; [lra|]. apply (side_or _ _ _ 305); [lia|reflexivity|]. pose proof ln2_bounds. eapply ln_side; try eassumption. lra.
  - destruct Hr as [-> | Hr]; [lra|]. apply (side_or _ _ _ 305); [lia|reflexivity|]. pose proof ln10_bounds. eapply ln_side; try eassumption. lra.
  - destruct Hr as [-> | Hr]; [apply side_0; [reflexivity|apply asin_0]|]. eapply (side_win _ _ _ 305); [lia|]. apply asin_win; assumption.
  - apply (side_or _ _ _ 305); [lia|reflexivity|]. eapply acos_win; eassumption.
  - destruct Hr as [-> | Hr]; [apply side_0; [reflexivity|apply atan_0]|]. eapply (side_win _ _ _ 305); [lia|]. apply atan_win; assumption.
  - destruct Hr as [-> | Hr]; [apply side_0; [reflexivity|unfold sinh; rewrite Ropp_0; field]|]. pose proof (sinh_lower a Hr). apply side_high; [reflexivity|lra|]. intros K. contradiction.
  - pose proof (cosh_ge_1 a). apply side_high; [reflexivity| |lra]. assert (bpow radix2 (-305) < 1) by (apply (bpow_lt radix2 (-305) 0); lia). rewrite Rabs_pos_eq by lra. lra.
  - change (sinh a / cosh a) with (tanh a). destruct Hr as [-> | Hr]; [apply side_0; [reflexivity|unfold tanh, sinh; rewrite Ropp_0; unfold Rdiv; ring]|]. eapply (side_win _ _ _ 305); [lia|]. apply tanh_win; assumption.
  - change (ln (a + sqrt (a * a + 1))) with (ars a). destruct Hr as [-> | Hr]; [apply side_0; [reflexivity|unfold ars; replace (0 * 0 + 1) with 1 by ring; rewrite sqrt_1, Rplus_0_l; apply ln_1]|]. eapply (side_win _ _ _ 305); [lia|]. apply ars_win; assumption.
  - destruct Hr as [-> | Hr]; [lra|]. apply (side_or _ _ _ 305); [lia|reflexivity|]. eapply arc_win; try eassumption. eapply win_weaken; [eassumption|lia].
  - destruct Hr as [-> | Hr]; [apply side_0; [reflexivity|replace ((1 + 0) / (1 - 0)) with 1 by field; rewrite ln_1; field]|]. eapply (side_win _ _ _ 305); [lia|]. eapply art_win; eassumption.
Qed.

Lemma core_dir : forall u g n F, dir u = Some g -> wide F -> core u n (e1 F) F (m1 lm g).
Proof.
  intros u g n F Hg W. apply core_simple; [destruct u; try discriminate Hg; reflexivity|].
  intros x a Ix HF _ Hr D. destruct (dir_dom u g a Hg D) as [D1 E]. split; [eapply lib_near; eassumption|eapply dir_side; eassumption].
Qed.

(** ** Constants *)
Lemma const_isf : forall (y : flt f80) m e, B2SF y = SpecFloat.S754_finite false m e -> isf y (IZR (Zpos m) * bpow radix2 e).
Proof. intros y m e H. destruct y; try discriminate. injection H as -> -> ->. split; reflexivity. Qed.
Lemma sc_b : forall k, (k <= PB)%Z -> sc (2 ^ (PB - k)) = bpow radix2 (- k).
Proof. intros k H. unfold sc. rewrite IZR_pow2, <- bpow_plus by lia. f_equal. lia. Qed.
Lemma pi_acc : acc (bpow radix2 (-63)) f80 PI (PI_ x86_64).
Proof.
  exists (IZR 14488038916154245685 * bpow radix2 (-62)). split; [apply const_isf; vm_compute; reflexivity|].
  destruct ipi_in as [H1 H2]. pose proof PI_bounds as PB_.
  assert (IZR 14488038916154245685 * bpow radix2 (-62) = sc (14488038916154245685 * 2 ^ 66)) as -> by (unfold sc, PB; rewrite mult_IZR, IZR_pow2, Rmult_assoc, <- bpow_plus by lia; reflexivity).
  apply Rle_trans with (bpow radix2 (-63) * 1); [|apply Rmult_le_compat_l; [apply bpow_ge_0|rewrite Rabs_pos_eq by lra; lra]].
  rewrite Rmult_1_r. change (bpow radix2 (-63)) with (bpow radix2 (Z.opp 63)). rewrite <- (sc_b 63) by (unfold PB; lia). apply Rabs_le.
  assert (sc (lo ipi) - sc (2 ^ (PB - 63)) <= sc (14488038916154245685 * 2 ^ 66) <= sc (lo ipi) + sc (2 ^ (PB - 63)) /\ sc (hi ipi) - sc (2 ^ (PB - 63)) <= sc (14488038916154245685 * 2 ^ 66)) as K; [|lra].
  rewrite <- !sc_minus, <- !sc_plus. split; [split|]; apply sc_le; vm_compute; discriminate.
Qed.
Lemma recip_ln_acc : forall (y : flt f80) m e b, (e < 0)%Z -> B2SF y = SpecFloat.S754_finite false m e -> 1 < IZR b ->
  iexp_ok (iq (2 ^ (- e)) (Zpos m)) = true -> near_check (iexp (iq (2 ^ (- e)) (Zpos m))) b 0 (2 ^ (PB - 62)) = true ->
  IZR (Zpos m) * bpow radix2 e <= 2 -> acc (bpow radix2 (-61)) f80 (/ ln (IZR b)) y.
Proof.
  intros y m e b He Hy Hb K1 K2 Hm. set (c := IZR (Zpos m) * bpow radix2 e) in *. exists c. split; [apply const_isf; assumption|].
  assert (0 < c) as Pc by (apply Rmult_lt_0_compat; [apply IZR_lt; lia|apply bpow_gt_0]).
  assert (inI (/ c) (iq (2 ^ (- e)) (Zpos m))) as I.
  { replace (/ c) with (IZR (2 ^ (- e)) / IZR (Zpos m)); [apply iq_in; lia|]. unfold c. rewrite IZR_pow2, bpow_opp by lia. field. split; [apply Rgt_not_eq, bpow_gt_0|apply IZR_neq; lia]. }
  pose proof (near_check_ln (/ c) _ b 0 _ K2 (iexp_in _ _ K1 I)) as N. rewrite sc_b in N by (unfold PB; lia). change (bpow radix2 0) with 1 in N. rewrite Rmult_1_r in N.
  assert (0 < ln (IZR b)) as Pl by (rewrite <- ln_1; apply ln_increasing; lra).
  replace (c - / ln (IZR b)) with (c * (ln (IZR b) - / c) * / ln (IZR b)) by (field; lra). rewrite !Rabs_mult. apply Rmult_le_compat_r; [apply Rabs_pos|].
  rewrite (Rabs_pos_eq c) by lra. replace (bpow radix2 (-61)) with (2 * bpow radix2 (- (62))) by (change (-61)%Z with (1 + - (62))%Z; rewrite bpow_plus; reflexivity).
  apply Rmult_le_compat; [lra|apply Rabs_pos|assumption|assumption].
Qed.
Lemma bpow_62 : 0 < bpow radix2 (-63) /\ bpow radix2 (-62) = 2 * bpow radix2 (-63) /\ bpow radix2 (-61) = 4 * bpow radix2 (-63) /\ bpow radix2 (-64) = / 2 * bpow radix2 (-63) /\ bpow radix2 (-63) < / 1024 / 1024 / 1024 /\
  bpow radix2 (-49) = 16384 * bpow radix2 (-63) /\ bpow radix2 (-50) = 8192 * bpow radix2 (-63) /\ bpow radix2 (-48) = 32768 * bpow radix2 (-63) /\ bpow radix2 (-53) = 1024 * bpow radix2 (-63) /\
  bpow radix2 (-60) = 8 * bpow radix2 (-63) /\ bpow radix2 (-59) = 16 * bpow radix2 (-63).
Proof.
  assert (forall k, (0 <= k)%Z -> bpow radix2 (-63 + k) = IZR (2 ^ k) * bpow radix2 (-63)) as K by (intros; apply bpow_step; assumption).
  split; [apply bpow_gt_0|]. split; [exact (K 1%Z ltac:(lia))|]. split; [exact (K 2%Z ltac:(lia))|]. split.
  { replace (/ 2) with (bpow radix2 (-1)) by (simpl; lra). rewrite <- bpow_plus. reflexivity. }
  split. { replace (/ 1024 / 1024 / 1024) with (bpow radix2 (-30)) by (simpl; lra). apply bpow_lt. lia. }
  split; [exact (K 14%Z ltac:(lia))|]. split; [exact (K 13%Z ltac:(lia))|]. split; [exact (K 15%Z ltac:(lia))|]. split; [exact (K 10%Z ltac:(lia))|]. split; [exact (K 3%Z ltac:(lia))|exact (K 4%Z ltac:(lia))].
Qed.
Ltac bp := destruct bpow_62 as (Q0 & Q62 & Q61 & Q64 & Qs & Q49 & Q50 & Q48 & Q53 & Q60 & Q59).
Lemma lb_acc : acc (bpow radix2 (-61)) f80 (/ ln 2) (LB_E x86_64).
Proof.
  apply (recip_ln_acc _ 13306513097844322492 (-63) 2); try lia; try lra; try (vm_compute; reflexivity). bp. rewrite <- (Rmult_1_r 2). 
  apply Rle_trans with (IZR (2 ^ 64) * bpow radix2 (-63)); [apply Rmult_le_compat_r; [lra|apply IZR_le; vm_compute; discriminate]|]. rewrite IZR_pow2, <- bpow_plus by lia. simpl. lra.
Qed.
Lemma lg_acc : acc (bpow radix2 (-61)) f80 (/ ln 10) (LG_E x86_64).
Proof.
  apply (recip_ln_acc _ 16022638320587141525 (-65) 10); try lia; try lra; try (vm_compute; reflexivity).
  apply Rle_trans with (IZR (2 ^ 64) * bpow radix2 (-65)); [apply Rmult_le_compat_r; [apply bpow_ge_0|apply IZR_le; vm_compute; discriminate]|]. rewrite IZR_pow2, <- bpow_plus by lia. simpl. lra.
Qed.
Lemma e1_80 : e1 f80 = bpow radix2 (-61). Proof. reflexivity. Qed.
Lemma fp80 : bpow radix2 (- fprec f80) = bpow radix2 (-64). Proof. reflexivity. Qed.

(** division by pi *)
Lemma over_pi : forall e h R_ (y : flt f80), near e h f80 R_ y -> 0 <= e <= bpow radix2 (-50) -> R_ = 0 \/ win 305 R_ ->
  acc (e + bpow radix2 (-60)) f80 (R_ / PI) (fdiv y (PI_ x86_64)) /\ (R_ / PI = 0 \/ win 310 (R_ / PI)).
Proof.
  intros e h R_ y N He HR. pose proof PI_bounds as PB. bp. pose proof (win_of PI ltac:(lra)) as WP.
  assert (R_ / PI = 0 \/ win 310 (R_ / PI)) as HR' by (destruct HR as [-> | H]; [left; unfold Rdiv; ring|right; exact (win_div 305 5 _ _ H WP)]).
  split; [|assumption]. apply (acc_div e (bpow radix2 (-63))); try lra; try apply w80.
  - apply (near_acc e h); [assumption|]. destruct HR as [H|H]; [left; assumption|right; eapply win_weaken; [eassumption|lia]].
  - apply pi_acc.
  - destruct HR as [H|H]; [left; assumption|right]. eapply win_weaken; [apply (win_div 305 5 _ _ H WP)|lia].
  - rewrite fp80. replace (bpow radix2 (-60)) with (8 * bpow radix2 (-63)) by (change (-60)%Z with (3 + -63)%Z; rewrite bpow_plus; reflexivity). nra.
Qed.

(** ** Composite functions without rounding of the argument *)
Definition e8 : R := bpow radix2 (-59).
(** the same for the functions that lose bits *)
Definition e9 : R := bpow radix2 (-49).
Lemma acc_core : forall u a R_ (y : flt f80) e h, (h <= 900)%Z -> low_ok u = false -> acc e f80 R_ y -> e <= e8 -> R_ = 0 \/ win h R_ -> near e8 850 f80 R_ y /\ side u a R_.
Proof.
  intros u a R_ y e h Hh Hl A He HR. assert (R_ = 0 \/ win 900 R_) as HR' by (destruct HR; [left; assumption|right; eapply win_weaken; eassumption]).
  split; [|eapply side_or; eassumption]. apply acc_near; [|assumption]. eapply acc_weaken; [exact A|assumption].
Qed.

Lemma core_10 : forall n, core n_10_raised n e8 f80 (ten_raisedl x86_64 lm).
Proof.
  intros n. apply core_simple; [reflexivity|]. intros x a Ix HF _ Hr _. cbn [real_fun]. destruct (isf_fint (f := f80) 10) as [F10 V10]; [simpl; lia|].
  split; [|apply side_pos; [discriminate|reflexivity|reflexivity|apply exp_pos]]. destruct Ix as [Fx Vx].
  pose proof (c_pow_pos lm C f80 (fint f80 10) x F10 Fx ltac:(rewrite V10; lra)) as K. rewrite V10, Vx in K.
  apply close_near in K; [|apply w80|lia]. eapply near_weaken; [exact K| |lia]. apply bpow_le. simpl. lia.
Qed.

Lemma over_pi_core : forall u g n, trigonometric u = false -> low_ok u = false ->
  (forall x a, isf x a -> FF f80 a -> a = 0 \/ win 300 a -> defined u a -> exists R_, near (e1 f80) 850 f80 R_ (g x) /\ (R_ = 0 \/ win 305 R_) /\ real_fun u a = R_ / PI) ->
  core u n e8 f80 (fun x => fdiv (g x) (PI_ x86_64)).
Proof.
  intros u g n T Lo H. apply core_simple; [assumption|]. intros x a Ix HF _ Hr D. destruct (H x a Ix HF Hr D) as (R_ & N & HR & ->). bp.
  destruct (over_pi _ _ _ _ N ltac:(rewrite e1_80; lra) HR) as [A W]. apply (acc_core _ _ _ _ (e1 f80 + bpow radix2 (-60)) 310); try assumption; [lia|].
  rewrite e1_80. unfold e8. lra.
Qed.
Lemma zero_or : forall (f : R -> R) a h, f 0 = 0 -> (win 300 a -> win h (f a)) -> a = 0 \/ win 300 a -> f a = 0 \/ win h (f a).
Proof. intros f a h H0 H [-> | K]; [left; assumption|right; apply H; assumption]. Qed.

Lemma core_asinpi : forall n, core n_arcsin_over_pi n e8 f80 (arcsin_over_pil x86_64 lm).
Proof.
  intros n. apply over_pi_core; try reflexivity. intros x a Ix HF Hr D. cbn [defined real_fun] in *. exists (asin a). split; [eapply lib_near; [apply w80|eassumption|exact D|reflexivity]|].
  split; [|reflexivity]. apply (zero_or asin); [apply asin_0|apply asin_win; assumption|assumption].
Qed.
Lemma core_acospi : forall n, core n_arccos_over_pi n e8 f80 (arccospil x86_64 lm).
Proof.
  intros n. apply over_pi_core; try reflexivity. intros x a Ix HF Hr D. cbn [defined real_fun] in *. exists (acos a). split; [eapply lib_near; [apply w80|eassumption|exact D|reflexivity]|].
  split; [|reflexivity]. eapply acos_win; [apply w80|assumption|assumption].
Qed.
Lemma core_atanpi : forall n, core n_arctan_over_pi n e8 f80 (arctanpil x86_64 lm).
Proof.
  intros n. apply over_pi_core; try reflexivity. intros x a Ix HF Hr D. cbn [defined real_fun] in *. exists (atan a). split; [eapply lib_near; [apply w80|eassumption|exact D|reflexivity]|].
  split; [|reflexivity]. apply (zero_or atan); [apply atan_0|apply atan_win|assumption].
Qed.

Lemma log1p_core : forall u n c (y : flt f80), trigonometric u = false -> low_ok u = false -> 1 / 16 <= / ln (IZR c) <= 16 -> acc (bpow radix2 (-61)) f80 (/ ln (IZR c)) y ->
  (forall a, real_fun u a = ln (1 + a) / ln (IZR c)) -> (forall a, defined u a = (-1 < a)) -> core u n e8 f80 (fun x => fmul y (m1 lm Flog1p x)).
Proof.
  intros u n c y T Lo Hc A ER ED. apply core_simple; [assumption|]. intros x a Ix HF _ Hr D. rewrite ED in D. rewrite ER. bp.
  pose proof (lib_near Flog1p f80 x a _ w80 Ix D eq_refl) as N. cbn [real1] in N. rewrite e1_80 in N.
  assert (ln (1 + a) = 0 \/ win 305 (ln (1 + a))) as HL.
  { destruct Hr as [-> | Hr]; [left; rewrite Rplus_0_r; apply ln_1|right; eapply ln1p_win; [apply w80|assumption|assumption|assumption]]. }
  replace (ln (1 + a) / ln (IZR c)) with (/ ln (IZR c) * ln (1 + a)) by (unfold Rdiv; ring).
  assert (win 5 (/ ln (IZR c))) as WC by (apply win_of; lra).
  assert (/ ln (IZR c) * ln (1 + a) = 0 \/ win 310 (/ ln (IZR c) * ln (1 + a))) as HR.
  { destruct HL as [-> | HL]; [left; ring|right; exact (win_mul 5 305 _ _ WC HL)]. }
  apply (acc_core _ _ _ _ e8 310); try assumption; [lia| |lra].
  apply (acc_mul (bpow radix2 (-61)) (bpow radix2 (-61))); try assumption; try lra; try apply w80.
  - apply (near_acc _ 850); [assumption|]. destruct HL as [H|H]; [left; assumption|right; eapply win_weaken; [eassumption|lia]].
  - destruct HR as [H|H]; [left; assumption|right; eapply win_weaken; [eassumption|lia]].
  - unfold e8. rewrite fp80, Q61, Q64, Q59. assert (bpow radix2 (-63) * bpow radix2 (-63) <= bpow radix2 (-63) * / 1024) by (apply Rmult_le_compat_l; lra). lra.
Qed.
Lemma core_lb1p : forall n, core n_lb_1_plus n e8 f80 (lb_1_plusl x86_64 lm).
Proof.
  intros n. apply (log1p_core n_lb_1_plus n 2); try reflexivity; [|apply lb_acc]. pose proof ln2_bounds as B. split.
  - apply Rmult_le_reg_r with (ln 2); [lra|]. rewrite Rinv_l; lra.
  - apply Rmult_le_reg_r with (ln 2); [lra|]. rewrite Rinv_l; lra.
Qed.
Lemma core_lg1p : forall n, core n_lg_1_plus n e8 f80 (lg_1_plusl x86_64 lm).
Proof.
  intros n. apply (log1p_core n_lg_1_plus n 10); try reflexivity; [|apply lg_acc]. pose proof ln10_bounds as B. split.
  - apply Rmult_le_reg_r with (ln 10); [lra|]. rewrite Rinv_l; lra.
  - apply Rmult_le_reg_r with (ln 10); [lra|]. rewrite Rinv_l; lra.
Qed.

(** reciprocals of library functions *)
Definition e2 (F : fmt) : R := 2 * e1 F + 2 * bpow radix2 (- fprec F).
Lemma inv_near : forall g F (x : flt F) a R_, wide F -> isf x a -> dom1 g a -> real1 g a = R_ -> bpow radix2 (-900) <= Rabs R_ -> near (e2 F) 850 F (/ R_) (fdiv (one F) (m1 lm g x)).
Proof.
  intros g F x a R_ W Ix D E H. apply (near_inv (e1 F)); try assumption; [eapply lib_near; eassumption| |lia|unfold e2; lra].
  split; [apply bpow_ge_0|]. unfold e1. replace (/ 64) with (bpow radix2 (-6)) by (simpl; lra). apply bpow_le. pose proof (wide_prec F W). lia.
Qed.
Lemma core_coth : forall n, core n_coth n (e2 f80) f80 (cothl x86_64 lm).
Proof.
  intros n. apply core_simple; [reflexivity|]. intros x a Ix HF _ Hr D. cbn [defined real_fun] in *. destruct Hr as [Hr|Hr]; [contradiction|].
  pose proof (tanh_win a Hr) as T. pose proof (cosh_ge_1 a) as Ch. assert (sinh a <> 0) as Ns by (pose proof (sinh_sign a Hr); intros E; rewrite E in *; lra).
  replace (cosh a / sinh a) with (/ tanh a) by (unfold tanh; field; split; lra). split; [|eapply side_win; [|apply win_inv; exact T]; lia].
  eapply inv_near; [apply w80|exact Ix|exact I|reflexivity|]. cbn [real1]. eapply win9; [|exact T]. lia.
Qed.
Lemma core_sech : forall n F, wide F -> core n_sech n (e2 F) F (sech_ lm).
Proof.
  intros n F W. apply core_simple; [reflexivity|]. intros x a Ix HF _ Hr D. cbn [defined real_fun] in *. pose proof (cosh_ge_1 a) as Ch.
  assert (bpow radix2 (-900) < 1) as B by (apply (bpow_lt radix2 (-900) 0); lia).
  split; [eapply inv_near; [assumption|exact Ix|exact I|reflexivity|]; cbn [real1]; rewrite Rabs_pos_eq; lra|].
  assert (0 < / cosh a <= 1) as [P U] by (split; [apply Rinv_0_lt_compat; lra|rewrite <- Rinv_1; apply Rinv_le_contravar; lra]).
  destruct (Rlt_or_le (Rabs (/ cosh a)) (bpow radix2 (-900))) as [K|K].
  - right; right; left. split; [lra|]. split; [assumption|]. split; [reflexivity|]. split; [discriminate|intros _; assumption].
  - right; left. split; [assumption|]. rewrite Rabs_pos_eq by lra. apply Rle_trans with 1; [assumption|]. apply (bpow_le radix2 0 900). lia.
Qed.
Lemma core_csch : forall n, core n_csch n (e2 f80) f80 (cschl x86_64 lm).
Proof.
  intros n. apply core_simple; [reflexivity|]. intros x a Ix HF _ Hr D. cbn [defined real_fun] in *. destruct Hr as [Hr|Hr]; [contradiction|].
  pose proof (sinh_lower a Hr) as L. pose proof (sinh_sign a Hr) as S. pose proof b305 as B. assert (sinh a <> 0) as Ns by (intros E; rewrite E in *; lra).
  split; [eapply inv_near; [apply w80|exact Ix|exact I|reflexivity|]; cbn [real1]; lra|].
  destruct (Rlt_or_le (Rabs (/ sinh a)) (bpow radix2 (-900))) as [K|K].
  - right; right; left. split; [apply Rinv_neq_0_compat; assumption|]. split; [assumption|]. split; [reflexivity|]. split; [intros _|intros K'; contradiction].
    assert (a * / sinh a = a * sinh a * (/ sinh a * / sinh a)) as -> by (field; assumption). apply Rmult_lt_0_compat; [assumption|]. pose proof (Rinv_neq_0_compat _ Ns). nra.
  - right; left. split; [assumption|]. rewrite Rabs_inv. change (bpow radix2 900) with (bpow radix2 (- (-900))). rewrite bpow_opp. apply Rinv_le_contravar; [apply bpow_gt_0|lra].
Qed.
End Core.
