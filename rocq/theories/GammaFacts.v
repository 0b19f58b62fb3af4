(** Bounds of Euler's constant by the Euler-Maclaurin formula at n = 64. *)
From Coq Require Import ZArith Reals Bool List Lia Lra.
From Flocq Require Import Core.Core.
From Verif Require Import Spec RealBounds Constants ConstSpec ConstFacts.
Import ListNotations.
Local Open Scope R_scope.

(** sums of c / x^m *)
Fixpoint Rs (l : list (R * nat)) (x : R) : R :=
  match l with [] => 0 | (c, m) :: r => c * / x ^ m + Rs r x end.
Fixpoint Rd (l : list (R * nat)) (x : R) : R :=
  match l with [] => 0 | (c, m) :: r => - (c * INR m) * / x ^ S m + Rd r x end.

Lemma pow_inv_deriv : forall m x, 0 < x -> derivable_pt_lim (fun y => / y ^ m) x (- INR m * / x ^ S m).
Proof.
  intros m x Hx. assert (x ^ m <> 0) as N by (apply pow_nonzero; lra).
  pose proof (derivable_pt_lim_div (fct_cte 1) (fun y : R => (y ^ m)%R) x 0 (INR m * x ^ Nat.pred m) (derivable_pt_lim_const 1 x) (derivable_pt_lim_pow x m) N) as D.
  replace (- INR m * / x ^ S m) with ((0 * x ^ m - INR m * x ^ Nat.pred m * fct_cte 1 x) / Rsqr (x ^ m)).
  - eapply derivable_pt_lim_ext; [|exact D]. intros y. unfold div_fct, fct_cte. unfold Rdiv. ring.
  - unfold fct_cte, Rsqr. destruct m as [|m].
    + simpl. field. lra.
    + cbn [Nat.pred pow]. field. split; [apply pow_nonzero; lra|lra].
Qed.

Lemma Rs_deriv : forall l x, 0 < x -> derivable_pt_lim (Rs l) x (Rd l x).
Proof.
  induction l as [|[c m] l IH]; intros x Hx.
  - apply derivable_pt_lim_const.
  - change (Rs ((c, m) :: l)) with (fun y => c * / y ^ m + Rs l y). cbn [Rd].
    apply (derivable_pt_lim_plus (fun y => c * / y ^ m)); [|apply IH; assumption].
    replace (- (c * INR m) * / x ^ S m) with (c * (- INR m * / x ^ S m)) by ring.
    apply (derivable_pt_lim_scal (fun y => / y ^ m)). apply pow_inv_deriv. assumption.
Qed.

Lemma shift_deriv : forall f x d, derivable_pt_lim f (x + 1) d -> derivable_pt_lim (fun y => f (y + 1)) x d.
Proof.
  intros f x d H. replace d with (d * (1 + 0)) by ring. apply (derivable_pt_lim_comp (fun y => y + 1) f); [|assumption].
  apply (derivable_pt_lim_plus id (fct_cte 1)); [apply derivable_pt_lim_id|apply derivable_pt_lim_const].
Qed.

(** all exponents are positive *)
Fixpoint pos_exps (l : list (R * nat)) : Prop :=
  match l with [] => True | (_, m) :: r => (0 < m)%nat /\ pos_exps r end.
Fixpoint abs_sum (l : list (R * nat)) : R :=
  match l with [] => 0 | (c, _) :: r => Rabs c + abs_sum r end.
Lemma abs_sum_pos : forall l, 0 <= abs_sum l.
Proof. induction l as [|[c m] l IH]; simpl; [lra|]. pose proof (Rabs_pos c). lra. Qed.
Lemma Rs_small : forall l x, pos_exps l -> 1 <= x -> Rabs (Rs l x) <= abs_sum l / x.
Proof.
  induction l as [|[c m] l IH]; intros x Hl Hx.
  - simpl. rewrite Rabs_R0. unfold Rdiv. lra.
  - destruct Hl as [Hm Hl]. cbn [Rs abs_sum]. eapply Rle_trans; [apply Rabs_triang|].
    replace ((Rabs c + abs_sum l) / x) with (Rabs c * / x + abs_sum l / x) by (field; lra).
    apply Rplus_le_compat; [|apply IH; assumption]. rewrite Rabs_mult. apply Rmult_le_compat_l; [apply Rabs_pos|].
    assert (0 < x ^ m) by (apply pow_lt; lra). rewrite Rabs_pos_eq by (left; apply Rinv_0_lt_compat; assumption).
    apply Rinv_le_contravar; [lra|]. replace x with (x ^ 1) at 1 by ring. apply Rle_pow; [assumption|lia].
Qed.

Section EM.
Variable l : list (R * nat).
Hypothesis Hl : pos_exps l.

Definition gf (x : R) : R := / (x + 1) - (ln (x + 1) - ln x) + (Rs l (x + 1) - Rs l x).
Definition gd (x : R) : R := - / (x + 1) ^ 2 - (/ (x + 1) - / x) + (Rd l (x + 1) - Rd l x).

Lemma gf_deriv : forall x, 0 < x -> derivable_pt_lim gf x (gd x).
Proof.
  intros x Hx. unfold gd.
  apply (derivable_pt_lim_plus (fun y => / (y + 1) - (ln (y + 1) - ln y)) (fun y => Rs l (y + 1) - Rs l y)).
  - apply (derivable_pt_lim_minus (fun y => / (y + 1)) (fun y => ln (y + 1) - ln y)).
    + apply (shift_deriv (fun y => / y)). pose proof (pow_inv_deriv 1 (x + 1) ltac:(lra)) as D.
      replace (- / (x + 1) ^ 2) with (- INR 1 * / (x + 1) ^ 2) by (simpl; field; lra).
      eapply derivable_pt_lim_ext; [|exact D]. intros y. cbv beta. rewrite pow_1. reflexivity.
    + apply (derivable_pt_lim_minus (fun y => ln (y + 1)) ln); [|apply derivable_pt_lim_ln; assumption].
      apply (shift_deriv ln). apply derivable_pt_lim_ln. lra.
  - apply (derivable_pt_lim_minus (fun y => Rs l (y + 1)) (Rs l)); [|apply Rs_deriv; assumption].
    apply (shift_deriv (Rs l)). apply Rs_deriv. lra.
Qed.

Lemma gf_small : forall x, 1 <= x -> Rabs (gf x) <= (2 + 2 * abs_sum l) / x.
Proof.
  intros x Hx. unfold gf. pose proof (Rs_small l x Hl Hx) as B1. pose proof (Rs_small l (x + 1) Hl ltac:(lra)) as B2.
  pose proof (abs_sum_pos l) as Pa.
  assert (0 < / (x + 1) <= / x) as [I1 I2] by (split; [apply Rinv_0_lt_compat|apply Rinv_le_contravar]; lra).
  assert (abs_sum l / (x + 1) <= abs_sum l / x) as I3 by (apply Rmult_le_compat_l; assumption).
  assert (0 <= ln (x + 1) - ln x <= / x) as [L1 L2].
  { assert (ln x < ln (x + 1)) by (apply ln_increasing; lra). split; [lra|].
    replace (x + 1) with (x * (1 + / x)) by (field; lra). rewrite ln_mult by lra.
    enough (ln (1 + / x) <= / x) by lra. apply Rnot_lt_le. intros K. apply exp_increasing in K. rewrite exp_ln in K by lra.
    pose proof (exp_ineq1 (/ x) ltac:(lra)). lra. }
  replace ((2 + 2 * abs_sum l) / x) with (/ x + / x + (abs_sum l / x + abs_sum l / x)) by (field; lra).
  revert B1 B2. unfold Rabs at 1 2. destruct (Rcase_abs _), (Rcase_abs _); intros B1 B2; apply Rabs_le; lra.
Qed.

Lemma gf_sign_gen : forall e, e = 1 \/ e = -1 -> (forall x, 0 < x -> 0 <= e * gd x) -> forall x, 1 <= x -> e * gf x <= 0.
Proof.
  intros e He Hd x Hx. apply Rnot_lt_le. intros P. set (C := 2 + 2 * abs_sum l).
  pose proof (abs_sum_pos l) as Pa. assert (0 < C) as PC by (unfold C; lra). set (p := e * gf x) in *.
  set (y := x + 2 * C / p). assert (0 < 2 * C / p) as Pq by (apply Rmult_lt_0_compat; [lra|apply Rinv_0_lt_compat; assumption]).
  assert (p <= e * gf y) as M.
  { destruct (MVT_cor2 gf gd x y) as (c & E & Hc); [unfold y; lra|intros c Hc; apply gf_deriv; unfold y in *; lra|].
    specialize (Hd c ltac:(lra)). assert (0 <= e * gd c * (y - x)) by (apply Rmult_le_pos; unfold y; lra).
    unfold p. replace (e * gf y) with (e * gf x + e * (gf y - gf x)) by ring. rewrite E. lra. }
  pose proof (gf_small y ltac:(unfold y; lra)) as B. fold C in B.
  assert (C / y < p) as K.
  { apply Rmult_lt_reg_r with y; [unfold y; lra|]. replace (C / y * y) with C by (field; unfold y; lra).
    unfold y. replace (p * (x + 2 * C / p)) with (p * x + 2 * C) by (field; lra).
    assert (0 < p * x) by (apply Rmult_lt_0_compat; lra). lra. }
  assert (e * gf y <= Rabs (gf y)) by (unfold Rabs; destruct (Rcase_abs (gf y)), He as [-> | ->]; lra). lra.
Qed.
Lemma gf_sign : (forall x, 0 < x -> 0 <= gd x) -> forall x, 1 <= x -> gf x <= 0.
Proof.
  intros H x Hx. pose proof (gf_sign_gen 1 (or_introl eq_refl)) as K. specialize (K ltac:(intros z Hz; specialize (H z Hz); lra) x Hx). lra.
Qed.
Lemma gf_sign_pos : (forall x, 0 < x -> gd x <= 0) -> forall x, 1 <= x -> 0 <= gf x.
Proof.
  intros H x Hx. pose proof (gf_sign_gen (-1) (or_intror eq_refl)) as K. specialize (K ltac:(intros z Hz; specialize (H z Hz); lra) x Hx). lra.
Qed.
End EM.

(** the approximations of Euler's constant *)
Definition em (l : list (R * nat)) (n : nat) : R :=
  sum_f_R0 (fun k => / INR (S k)) n - ln (INR (S n)) + Rs l (INR (S n)).
Lemma em_step : forall l n, em l (S n) - em l n = gf l (INR (S n)).
Proof.
  intros l n. unfold em, gf. cbn [sum_f_R0]. rewrite (S_INR (S n)). ring.
Qed.
Lemma Rs_cv : forall l, pos_exps l -> Un_cv (fun n => Rs l (INR (S n))) 0.
Proof.
  intros l Hl eps He. pose proof (abs_sum_pos l) as Pa.
  destruct (archimed ((abs_sum l + 1) / eps)) as [A _]. set (N := Z.to_nat (up ((abs_sum l + 1) / eps))).
  assert (0 < (abs_sum l + 1) / eps) as Pq by (apply Rmult_lt_0_compat; [lra|apply Rinv_0_lt_compat; assumption]).
  exists N. intros n Hn. unfold R_dist. rewrite Rminus_0_r.
  assert (1 <= INR (S n)) as H1 by (rewrite S_INR; pose proof (pos_INR n); lra).
  eapply Rle_lt_trans; [apply Rs_small; assumption|].
  assert ((abs_sum l + 1) / eps < INR (S n)) as K.
  { eapply Rlt_le_trans; [exact A|]. rewrite INR_IZR_INZ. apply IZR_le.
    assert (0 < up ((abs_sum l + 1) / eps))%Z by (apply lt_IZR; lra). unfold N in Hn. lia. }
  apply Rmult_lt_reg_r with (INR (S n)); [lra|]. unfold Rdiv. rewrite Rmult_assoc, Rinv_l, Rmult_1_r by lra.
  apply Rmult_lt_compat_l with (r := eps) in K; [|assumption]. replace (eps * ((abs_sum l + 1) / eps)) with (abs_sum l + 1) in K by (field; lra). lra.
Qed.
Lemma em_cv : forall l g, pos_exps l -> Un_cv (fun n => sum_f_R0 (fun k => / INR (S k)) n - ln (INR (S n))) g -> Un_cv (em l) g.
Proof.
  intros l g Hl Hg. replace g with (g + 0) by ring. unfold em.
  apply (CV_plus (fun n => sum_f_R0 (fun k => / INR (S k)) n - ln (INR (S n))) (fun n => Rs l (INR (S n)))); [assumption|apply Rs_cv; assumption].
Qed.

Definition l5 : list (R * nat) := [(-1/2, 1%nat); (1/12, 2%nat); (-1/120, 4%nat); (1/252, 6%nat); (-1/240, 8%nat); (1/132, 10%nat)].
Definition l6 : list (R * nat) := [(-1/2, 1%nat); (1/12, 2%nat); (-1/120, 4%nat); (1/252, 6%nat); (-1/240, 8%nat); (1/132, 10%nat); (-691/32760, 12%nat)].

Lemma gd5 : forall x, 0 < x -> 0 <= gd l5 x.
Proof.
  intros x Hx. unfold gd, l5. cbn [Rd INR].
  match goal with |- 0 <= ?e => replace e with
    ((5/66 + 5/6*x + 62/15*x^2 + 182/15*x^3 + 487/21*x^4 + 625/21*x^5 + 2654/105*x^6 + 1382/105*x^7 + 691/210*x^8) / (x^11 * (x+1)^11)) by (field; lra) end.
  apply Rmult_le_pos; [|left; apply Rinv_0_lt_compat; apply Rmult_lt_0_compat; apply pow_lt; lra].
  repeat apply Rplus_le_le_0_compat; try (apply Rmult_le_pos; [lra|apply pow_le; lra]); lra.
Qed.
Lemma gd6 : forall x, 0 < x -> gd l6 x <= 0.
Proof.
  intros x Hx. unfold gd, l6. cbn [Rd INR].
  match goal with |- ?e <= 0 => replace e with
    (- ((691/2730 + 691/210*x + 45431/2310*x^2 + 164947/2310*x^3 + 202241/1155*x^4 + 6395/21*x^5 + 40189/105*x^6 + 5191/15*x^7 + 6533/30*x^8 + 175/2*x^9 + 35/2*x^10) / (x^13 * (x+1)^13))) by (field; lra) end.
  apply Ropp_le_cancel. rewrite Ropp_0, Ropp_involutive.
  apply Rmult_le_pos; [|left; apply Rinv_0_lt_compat; apply Rmult_lt_0_compat; apply pow_lt; lra].
  repeat apply Rplus_le_le_0_compat; try (apply Rmult_le_pos; [lra|apply pow_le; lra]); lra.
Qed.

Fixpoint iharm (n : nat) : itv :=
  match n with O => iz 1 | S k => iadd (iharm k) (iq 1 (Z.of_nat (S (S k)))) end.
Lemma iharm_in : forall n, inI (sum_f_R0 (fun k => / INR (S k)) n) (iharm n).
Proof.
  induction n.
  - simpl. rewrite Rinv_1. apply (iz_in 1).
  - cbn [sum_f_R0 iharm]. apply iadd_in; [assumption|]. rewrite INR_IZR_INZ.
    replace (/ IZR (Z.of_nat (S (S n)))) with (IZR 1 / IZR (Z.of_nat (S (S n)))) by (unfold Rdiv; ring). apply iq_in. lia.
Qed.

Lemma ln64 : ln (INR 64) = 6 * ln 2.
Proof.
  rewrite INR_IZR_INZ. change (Z.of_nat 64) with 64%Z. replace 64 with (2 ^ 6) by ring. rewrite ln_pow by lra. simpl. ring.
Qed.
Lemma Rs5 : Rs l5 (INR 64) = - (IZR 124514686008786394007 / IZR 15979492053850899087360).
Proof. rewrite INR_IZR_INZ. change (Z.of_nat 64) with 64%Z. unfold l5. cbn [Rs]. field. Qed.
Lemma Rs6 : Rs l6 (INR 64) = - (IZR 4420105333730571938725691 / IZR 567250661922301783069163520).
Proof. rewrite INR_IZR_INZ. change (Z.of_nat 64) with 64%Z. unfold l6. cbn [Rs]. field. Qed.

Definition iem (a b : Z) : itv := isub (isub (iharm 63) (imul (iz 6) iln2)) (iq a b).
Lemma iem_in : forall l a b, (0 < b)%Z -> Rs l (INR 64) = - (IZR a / IZR b) -> inI (em l 63) (iem a b).
Proof.
  intros l a b Hb E. unfold em. rewrite E, ln64.
  match goal with |- inI (?x - ?y + - ?z) _ => replace (x - y + - z) with (x - y - z) by ring end.
  apply isub_in; [|apply iq_in; assumption]. apply isub_in; [apply iharm_in|].
  apply imul_in; [reflexivity|reflexivity|apply (iz_in 6)|apply ln2_in].
Qed.

Definition igamma : itv := Eval vm_compute in
  I_ (lo (iem 4420105333730571938725691 567250661922301783069163520)) (hi (iem 124514686008786394007 15979492053850899087360)).

Lemma gamma_in : forall g, Un_cv (fun n => sum_f_R0 (fun k => / INR (S k)) n - ln (INR (S n))) g -> inI g igamma.
Proof.
  intros g Hg.
  assert (igamma = I_ (lo (iem 4420105333730571938725691 567250661922301783069163520)) (hi (iem 124514686008786394007 15979492053850899087360))) as -> by (vm_compute; reflexivity).
  assert (pos_exps l5) as P5 by (simpl; repeat split; lia). assert (pos_exps l6) as P6 by (simpl; repeat split; lia).
  pose proof (em_cv l5 g P5 Hg) as C5. pose proof (em_cv l6 g P6 Hg) as C6.
  assert (forall n, 1 <= INR (S n)) as H1 by (intros n; rewrite S_INR; pose proof (pos_INR n); lra).
  assert (inI (em l6 63) (iem 4420105333730571938725691 567250661922301783069163520)) as [I6 _] by (apply iem_in; [lia|exact Rs6]).
  assert (inI (em l5 63) (iem 124514686008786394007 15979492053850899087360)) as [_ I5] by (apply iem_in; [lia|exact Rs5]).
  revert I5 I6. generalize (iem 4420105333730571938725691 567250661922301783069163520) (iem 124514686008786394007 15979492053850899087360). intros i6 i5 I5 I6.
  split; cbn [lo hi].
  - apply Rle_trans with (em l6 63); [assumption|].
    apply growing_ineq; [|assumption]. intros n. enough (0 <= gf l6 (INR (S n))) by (pose proof (em_step l6 n); lra).
    apply (gf_sign_pos l6 P6 gd6 (INR (S n)) (H1 n)).
  - apply Rle_trans with (em l5 63); [|assumption].
    apply decreasing_ineq; [|assumption]. intros n. enough (gf l5 (INR (S n)) <= 0) by (pose proof (em_step l5 n); lra).
    apply (gf_sign l5 P5 gd5 (INR (S n)) (H1 n)).
Qed.

(** the limit exists *)
Lemma gd0 : forall x, 0 < x -> 0 <= gd [] x.
Proof.
  intros x Hx. unfold gd. cbn [Rd]. replace (- / (x + 1) ^ 2 - (/ (x + 1) - / x) + (0 - 0)) with (/ (x * (x + 1) ^ 2)) by (field; lra).
  left. apply Rinv_0_lt_compat. apply Rmult_lt_0_compat; [assumption|apply pow_lt; lra].
Qed.
Lemma gamma_exists : exists g, Un_cv (fun n => sum_f_R0 (fun k => / INR (S k)) n - ln (INR (S n))) g.
Proof.
  assert (pos_exps l6) as P6 by (simpl; repeat split; lia).
  assert (forall n, 1 <= INR (S n)) as H1 by (intros n; rewrite S_INR; pose proof (pos_INR n); lra).
  set (s := fun n => sum_f_R0 (fun k => / INR (S k)) n - ln (INR (S n))).
  assert (forall l n, em l n = s n + Rs l (INR (S n))) as E by reflexivity.
  destruct (decreasing_cv s) as [g Hg].
  - intros n. pose proof (em_step [] n) as D. rewrite !E in D. cbn [Rs] in D. pose proof (gf_sign [] I gd0 (INR (S n)) (H1 n)). lra.
  - exists (abs_sum l6 - em l6 0). intros y [n Hn]. subst y. unfold opp_seq.
    assert (em l6 0 <= em l6 n) as G.
    { apply Rge_le. apply (growing_prop (em l6) n 0); [|lia]. intros m. pose proof (em_step l6 m). pose proof (gf_sign_pos l6 P6 gd6 (INR (S m)) (H1 m)). lra. }
    rewrite (E l6 n) in G. pose proof (Rs_small l6 (INR (S n)) P6 (H1 n)) as B. pose proof (Rle_abs (Rs l6 (INR (S n)))) as A.
    assert (abs_sum l6 / INR (S n) <= abs_sum l6).
    { pose proof (abs_sum_pos l6). rewrite <- (Rmult_1_r (abs_sum l6)) at 2. apply Rmult_le_compat_l; [assumption|].
      rewrite <- Rinv_1. apply Rinv_le_contravar; [lra|apply H1]. }
    lra.
  - exists g. exact Hg.
Qed.

(** ** The eight constants GAMMA *)
Definition gcheck (e : constant * (Z * Z * Z * Z) * (Z * Z * Z * Z)) : bool :=
  let '(c, (a8, a16, a32, a64), (b8, b16, b32, b64)) := e in
  match c with
  | c_GAMMA => let i := igamma in
      good i Logarithmic 8 a8 && good i Logarithmic 16 a16 && good i Logarithmic 32 a32 && good i Logarithmic 64 a64 &&
      good i Linear 8 b8 && good i Linear 16 b16 && good i Linear 32 b32 && good i Linear 64 b64
  | _ => true
  end.
Lemma gcheck_all : forallb gcheck constants = true.
Proof. vm_compute. reflexivity. Qed.

Lemma gamma_rounded : forall k n t x, header k n c_GAMMA t -> is_constant c_GAMMA x -> rounds k n x t.
Proof.
  assert (forall x a8 a16 a32 a64 b8 b16 b32 b64, In (c_GAMMA, (a8, a16, a32, a64), (b8, b16, b32, b64)) constants ->
    is_constant c_GAMMA x ->
    let ok := fun k n t => rounds k n x t in
    ok Logarithmic 8%Z a8 /\ ok Logarithmic 16%Z a16 /\ ok Logarithmic 32%Z a32 /\ ok Logarithmic 64%Z a64 /\
    ok Linear 8%Z b8 /\ ok Linear 16%Z b16 /\ ok Linear 32%Z b32 /\ ok Linear 64%Z b64) as H.
  { intros x a8 a16 a32 a64 b8 b16 b32 b64 HI Hx ok.
    pose proof (forallb_use _ _ _ gcheck_all HI) as C. unfold gcheck in C. cbv zeta in C.
    pose proof (gamma_in x Hx) as Hi.
    assert (forall k n t, (6 <= n <= 64)%Z -> good igamma k n t = true -> ok k n t) as K.
    { intros k n t Hn K. apply (good_ok igamma k n t x); assumption. }
    do 7 (apply andb_prop in C as [C ?]). repeat apply conj; apply K; (lia || assumption). }
  intros k n t x Hh. remember c_GAMMA as c eqn:Ec. destruct Hh as [c t t16 t32 t64 l Hh|c t8 t t32 t64 l Hh|c t8 t16 t t64 l Hh|c t8 t16 t32 t l Hh
    |c t t16 t32 t64 l Hh|c t8 t t32 t64 l Hh|c t8 t16 t t64 l Hh|c t8 t16 t32 t l Hh];
    subst c; destruct l as [[[l1 l2] l3] l4]; intros Hx; pose proof (H x _ _ _ _ _ _ _ _ Hh Hx) as K; cbv zeta in K; tauto.
Qed.

Lemma constant_eq_dec : forall a b : constant, {a = b} + {a <> b}.
Proof. decide equality. Qed.
Lemma all_constants_rounded : forall k n c t x, header k n c t -> is_constant c x -> wrong k n c = false -> rounds k n x t.
Proof.
  intros k n c t x Hh Hx W. destruct (constant_eq_dec c c_GAMMA) as [->|N].
  - apply gamma_rounded; assumption.
  - apply (constants_rounded k n c t x); assumption.
Qed.
