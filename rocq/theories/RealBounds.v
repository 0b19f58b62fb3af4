(** Bounds of real numbers by rational ones: an interval arithmetic with
    integers scaled by 2^128, exp by its Taylor polynomials, pi by a series of
    the standard library. *)
From Coq Require Import ZArith Reals Bool Lia Lra Ratan Machin.
From Flocq Require Import Core.Core.
Local Open Scope R_scope.

(** ** Taylor polynomials of exp *)
Fixpoint T (n : nat) (x : R) : R :=
  match n with O => 1 | S k => T k x + x ^ S k / INR (fact (S k)) end.

Lemma T_deriv : forall n x, derivable_pt_lim (T (S n)) x (T n x).
Proof.
  assert (forall n x, derivable_pt_lim (fun y => y ^ S n / INR (fact (S n))) x (x ^ n / INR (fact n))) as M.
  { intros n x. pose proof (derivable_pt_lim_pow x (S n)) as D. cbn [pred] in D.
    pose proof (derivable_pt_lim_scal _ (/ INR (fact (S n))) _ _ D) as D2.
    replace (x ^ n / INR (fact n)) with (/ INR (fact (S n)) * (INR (S n) * x ^ n)).
    - apply (derivable_pt_lim_ext _ _ _ _ (fun y => Rmult_comm (/ INR (fact (S n))) (y ^ S n))). exact D2.
    - rewrite fact_simpl, mult_INR. field. split; [apply INR_fact_neq_0|apply not_0_INR; discriminate]. }
  induction n; intros x.
  - change (T 1) with (fun y => 1 + y ^ 1 / INR (fact 1)).
    replace (T 0 x) with (0 + x ^ 0 / INR (fact 0)) by (simpl; field).
    apply (derivable_pt_lim_plus (fct_cte 1)); [apply derivable_pt_lim_const|apply (M 0%nat)].
  - change (T (S (S n))) with (fun y => T (S n) y + y ^ S (S n) / INR (fact (S (S n)))).
    change (T (S n) x) with (T n x + x ^ S n / INR (fact (S n))).
    apply (derivable_pt_lim_plus (T (S n))); [apply IHn|apply (M (S n))].
Qed.

Lemma T_0 : forall n, T n 0 = 1.
Proof. induction n; [reflexivity|]. cbn [T]. rewrite IHn, pow_ne_zero by discriminate. lra. Qed.

(** a function with a nonnegative derivative *)
Lemma incr_from_0 : forall f f', (forall c, 0 <= c -> derivable_pt_lim f c (f' c)) -> (forall c, 0 <= c -> 0 <= f' c) ->
  forall x, 0 <= x -> f 0 <= f x.
Proof.
  intros f f' D N x [Hx | <-]; [|lra].
  destruct (MVT_cor2 f f' 0 x Hx) as (c & E & Hc); [intros c Hc; apply D; lra|].
  specialize (N c ltac:(lra)). nra.
Qed.

Lemma exp_lower : forall n x, 0 <= x -> T n x <= exp x.
Proof.
  induction n; intros x Hx.
  - simpl. rewrite <- exp_0. destruct Hx as [Hx | <-]; [left; apply exp_increasing; assumption|lra].
  - pose proof (incr_from_0 (fun y => exp y - T (S n) y) (fun y => exp y - T n y)) as I. cbv beta in I.
    rewrite T_0, exp_0 in I. enough (1 - 1 <= exp x - T (S n) x) by lra. apply I; [| |assumption].
    + intros c Hc. apply derivable_pt_lim_minus; [apply derivable_pt_lim_exp|apply T_deriv].
    + intros c Hc. specialize (IHn c Hc). lra.
Qed.

Lemma neg_deriv : forall f x d, derivable_pt_lim f (- x) d -> derivable_pt_lim (fun y => f (- y)) x (- d).
Proof.
  intros f x d H. pose proof (derivable_pt_lim_comp Ropp f x (-1) d) as C. replace (- d) with (d * -1) by ring.
  apply C; [|assumption]. pose proof (derivable_pt_lim_opp id x 1 (derivable_pt_lim_id x)). assumption.
Qed.

Lemma exp_neg_bounds : forall n x, 0 <= x -> T (S (2 * n)) (- x) <= exp (- x) <= T (2 * n) (- x).
Proof.
  assert (forall k, (forall x, 0 <= x -> exp (- x) <= T k (- x)) -> forall x, 0 <= x -> T (S k) (- x) <= exp (- x)) as A.
  { intros k H x Hx. pose proof (incr_from_0 (fun y => exp (- y) - T (S k) (- y)) (fun y => - exp (- y) - - T k (- y))) as I. cbv beta in I.
    rewrite Ropp_0, T_0, exp_0 in I. enough (1 - 1 <= exp (- x) - T (S k) (- x)) by lra. apply I; [| |assumption].
    - intros c Hc. apply (derivable_pt_lim_minus (fun y => exp (- y)) (fun y => T (S k) (- y)));
        apply neg_deriv; [apply derivable_pt_lim_exp|apply T_deriv].
    - intros c Hc. specialize (H c Hc). lra. }
  assert (forall k, (forall x, 0 <= x -> T k (- x) <= exp (- x)) -> forall x, 0 <= x -> exp (- x) <= T (S k) (- x)) as B.
  { intros k H x Hx. pose proof (incr_from_0 (fun y => T (S k) (- y) - exp (- y)) (fun y => - T k (- y) - - exp (- y))) as I. cbv beta in I.
    rewrite Ropp_0, T_0, exp_0 in I. enough (1 - 1 <= T (S k) (- x) - exp (- x)) by lra. apply I; [| |assumption].
    - intros c Hc. apply (derivable_pt_lim_minus (fun y => T (S k) (- y)) (fun y => exp (- y)));
        apply neg_deriv; [apply T_deriv|apply derivable_pt_lim_exp].
    - intros c Hc. specialize (H c Hc). lra. }
  assert (forall n, (forall x, 0 <= x -> exp (- x) <= T (2 * n) (- x)) /\ (forall x, 0 <= x -> T (S (2 * n)) (- x) <= exp (- x))) as C.
  { induction n as [|n [I1 I2]].
    - assert (forall x, 0 <= x -> exp (- x) <= T (2 * 0) (- x)) as Z.
      { intros x Hx. simpl. rewrite <- exp_0. destruct Hx as [Hx | <-]; [left; apply exp_increasing; lra|rewrite Ropp_0; lra]. }
      split; [assumption|]. apply A. assumption.
    - replace (2 * S n)%nat with (S (S (2 * n))) by lia.
      assert (forall x, 0 <= x -> exp (- x) <= T (S (S (2 * n))) (- x)) as Z by (apply B; assumption).
      split; [assumption|]. apply A. assumption. }
  intros n x Hx. split; apply C; assumption.
Qed.

(** ** Intervals *)
Definition PB : Z := 128.
Definition sc (z : Z) : R := IZR z * bpow radix2 (- PB).
Record itv := I_ { lo : Z; hi : Z }.
Definition inI (r : R) (i : itv) : Prop := sc (lo i) <= r <= sc (hi i).

Lemma sc_scale : forall z, sc z * bpow radix2 PB = IZR z.
Proof. intros z. unfold sc. rewrite Rmult_assoc, <- bpow_plus. simpl. ring. Qed.
Lemma sc_le : forall a b, (a <= b)%Z -> sc a <= sc b.
Proof. intros a b H. apply Rmult_le_compat_r; [apply bpow_ge_0|]. apply IZR_le. assumption. Qed.
Lemma sc_plus : forall a b, sc (a + b) = sc a + sc b.
Proof. intros a b. unfold sc. rewrite plus_IZR. ring. Qed.
Lemma sc_minus : forall a b, sc (a - b) = sc a - sc b.
Proof. intros a b. unfold sc. rewrite minus_IZR. ring. Qed.
Lemma sc_0 : sc 0 = 0.
Proof. unfold sc. ring. Qed.
Lemma sc_pos : forall a, (0 <= a)%Z -> 0 <= sc a.
Proof. intros a H. rewrite <- sc_0. apply sc_le. assumption. Qed.
Lemma sc_gt : forall a, (0 < a)%Z -> 0 < sc a.
Proof. intros a H. apply Rmult_lt_0_compat; [apply IZR_lt; assumption|apply bpow_gt_0]. Qed.

Definition cdiv (a b : Z) : Z := (- (- a / b))%Z.
Lemma div_le_R : forall a b, (0 < b)%Z -> IZR (a / b) <= IZR a / IZR b.
Proof.
  intros a b H. apply IZR_lt in H as H'. apply Rmult_le_reg_r with (IZR b); [assumption|].
  replace (IZR a / IZR b * IZR b) with (IZR a) by (field; lra). rewrite <- mult_IZR. apply IZR_le.
  rewrite Z.mul_comm. apply Z.mul_div_le. assumption.
Qed.
Lemma cdiv_ge_R : forall a b, (0 < b)%Z -> IZR a / IZR b <= IZR (cdiv a b).
Proof.
  intros a b H. unfold cdiv. pose proof (div_le_R (- a) b H) as K. rewrite !opp_IZR in *. unfold Rdiv in *. lra.
Qed.

Lemma sc_div_lo : forall a b, (0 < b)%Z -> sc (a / b) <= sc a / IZR b.
Proof.
  intros a b H. unfold sc. replace (IZR a * bpow radix2 (- PB) / IZR b) with (IZR a / IZR b * bpow radix2 (- PB))
    by (field; apply IZR_lt in H; lra).
  apply Rmult_le_compat_r; [apply bpow_ge_0|]. apply div_le_R. assumption.
Qed.
Lemma sc_div_hi : forall a b, (0 < b)%Z -> sc a / IZR b <= sc (cdiv a b).
Proof.
  intros a b H. unfold sc. replace (IZR a * bpow radix2 (- PB) / IZR b) with (IZR a / IZR b * bpow radix2 (- PB))
    by (field; apply IZR_lt in H; lra).
  apply Rmult_le_compat_r; [apply bpow_ge_0|]. apply cdiv_ge_R. assumption.
Qed.
Lemma sc_mul : forall a b, sc a * sc b = sc (a * b) / IZR (2 ^ PB).
Proof. intros a b. unfold sc. rewrite mult_IZR. change (IZR (2 ^ PB)) with (bpow radix2 PB). rewrite bpow_opp. field. pose proof (bpow_gt_0 radix2 PB). lra. Qed.

(** the rational a / b *)
Definition iq (a b : Z) : itv := I_ (a * 2 ^ PB / b) (cdiv (a * 2 ^ PB) b).
Lemma iq_in : forall a b, (0 < b)%Z -> inI (IZR a / IZR b) (iq a b).
Proof.
  intros a b H. assert (IZR a / IZR b = sc (a * 2 ^ PB) / IZR b) as E.
  { f_equal. unfold sc. rewrite mult_IZR. change (IZR (2 ^ PB)) with (bpow radix2 PB). rewrite Rmult_assoc, <- bpow_plus. simpl. ring. }
  rewrite E. split; [apply sc_div_lo|apply sc_div_hi]; assumption.
Qed.
Definition iz (a : Z) : itv := I_ (a * 2 ^ PB) (a * 2 ^ PB).
Lemma iz_in : forall a, inI (IZR a) (iz a).
Proof.
  intros a. assert (sc (a * 2 ^ PB) = IZR a) as E.
  { unfold sc. rewrite mult_IZR. change (IZR (2 ^ PB)) with (bpow radix2 PB). rewrite Rmult_assoc, <- bpow_plus. simpl. ring. }
  split; cbn [iz lo hi]; rewrite E; lra.
Qed.

Definition iadd (i j : itv) : itv := I_ (lo i + lo j) (hi i + hi j).
Definition isub (i j : itv) : itv := I_ (lo i - hi j) (hi i - lo j).
Lemma iadd_in : forall x y i j, inI x i -> inI y j -> inI (x + y) (iadd i j).
Proof. intros x y i j [A B] [C D]. split; cbn [iadd lo hi]; rewrite sc_plus; lra. Qed.
Lemma isub_in : forall x y i j, inI x i -> inI y j -> inI (x - y) (isub i j).
Proof. intros x y i j [A B] [C D]. split; cbn [isub lo hi]; rewrite sc_minus; lra. Qed.

(** products, quotients: nonnegative operands *)
Definition nonneg (i : itv) : bool := (0 <=? lo i)%Z.
Definition imul (i j : itv) : itv := I_ (Z.shiftr (lo i * lo j) PB) (- Z.shiftr (- (hi i * hi j)) PB).
Lemma imul_eq : forall i j, imul i j = I_ (lo i * lo j / 2 ^ PB) (cdiv (hi i * hi j) (2 ^ PB)).
Proof. intros i j. unfold imul, cdiv. rewrite !Z.shiftr_div_pow2 by (unfold PB; lia). reflexivity. Qed.
Lemma imul_in : forall x y i j, nonneg i = true -> nonneg j = true -> inI x i -> inI y j -> inI (x * y) (imul i j).
Proof.
  intros x y i j Ni Nj [A B] [C D]. apply Z.leb_le in Ni, Nj. apply sc_pos in Ni, Nj.
  rewrite imul_eq. split; cbn [lo hi].
  - eapply Rle_trans; [apply sc_div_lo; reflexivity|]. rewrite <- sc_mul. apply Rmult_le_compat; lra.
  - eapply Rle_trans; [|apply sc_div_hi; reflexivity]. rewrite <- sc_mul. apply Rmult_le_compat; lra.
Qed.
Lemma imul_nonneg : forall i j, nonneg i = true -> nonneg j = true -> nonneg (imul i j) = true.
Proof. intros i j Hi Hj. apply Z.leb_le in Hi, Hj. apply Z.leb_le. rewrite imul_eq. cbn [lo]. apply Z.div_pos; [apply Z.mul_nonneg_nonneg; assumption|reflexivity]. Qed.

Definition idivz (i : itv) (k : Z) : itv := I_ (lo i / k) (cdiv (hi i) k).
Lemma idivz_in : forall x i k, (0 < k)%Z -> inI x i -> inI (x / IZR k) (idivz i k).
Proof.
  intros x i k Hk [A B]. apply IZR_lt in Hk as Hk'. assert (0 < / IZR k) by (apply Rinv_0_lt_compat; assumption).
  split; cbn [idivz lo hi].
  - eapply Rle_trans; [apply sc_div_lo; assumption|]. apply Rmult_le_compat_r; lra.
  - eapply Rle_trans; [|apply sc_div_hi; assumption]. apply Rmult_le_compat_r; lra.
Qed.

Definition idiv (i j : itv) : itv := I_ (lo i * 2 ^ PB / hi j) (cdiv (hi i * 2 ^ PB) (lo j)).
Lemma sc_ratio : forall a b, (0 < b)%Z -> sc a / sc b = sc (a * 2 ^ PB) / IZR b.
Proof.
  intros a b H. unfold sc. rewrite mult_IZR. change (IZR (2 ^ PB)) with (bpow radix2 PB). rewrite bpow_opp.
  apply IZR_lt in H. pose proof (bpow_gt_0 radix2 PB). field. split; lra.
Qed.
Lemma idiv_in : forall x y i j, nonneg i = true -> (0 <? lo j)%Z = true -> inI x i -> inI y j -> inI (x / y) (idiv i j).
Proof.
  intros x y i j Ni Nj [A B] [C D]. apply Z.leb_le in Ni. apply Z.ltb_lt in Nj. apply sc_pos in Ni. pose proof (sc_gt _ Nj) as Nj'.
  assert (0 < hi j)%Z as Hj. { apply lt_IZR. unfold sc in *. pose proof (bpow_gt_0 radix2 (- PB)). nra. }
  assert (0 < / sc (hi j) <= / y) as [K1 K2] by (split; [apply Rinv_0_lt_compat; lra|apply Rinv_le_contravar; lra]).
  assert (0 < / y <= / sc (lo j)) as [K3 K4] by (split; [apply Rinv_0_lt_compat; lra|apply Rinv_le_contravar; lra]).
  split; cbn [idiv lo hi].
  - eapply Rle_trans; [apply sc_div_lo; assumption|]. rewrite <- sc_ratio by assumption. apply Rmult_le_compat; lra.
  - eapply Rle_trans; [|apply sc_div_hi; assumption]. rewrite <- sc_ratio by assumption. apply Rmult_le_compat; lra.
Qed.

Definition isqrtz (k : Z) : itv := I_ (Z.sqrt (k * 2 ^ (2 * PB))) (Z.sqrt (k * 2 ^ (2 * PB)) + 1).
Lemma isqrtz_in : forall k, (0 <= k)%Z -> inI (sqrt (IZR k)) (isqrtz k).
Proof.
  intros k Hk. assert (0 <= k * 2 ^ (2 * PB))%Z as Hz by (apply Z.mul_nonneg_nonneg; [assumption|apply Z.pow_nonneg; lia]).
  pose proof (Z.sqrt_spec _ Hz) as [S1 S2]. pose proof (Z.sqrt_nonneg (k * 2 ^ (2 * PB))) as S0. set (s := Z.sqrt _) in *.
  assert (forall z, sc z * sc z = IZR (z * z) * bpow radix2 (-256)) as Q.
  { intros z. unfold sc. rewrite mult_IZR. replace (bpow radix2 (-256)) with (bpow radix2 (- PB) * bpow radix2 (- PB)) by (rewrite <- bpow_plus; reflexivity). ring. }
  assert (IZR k = IZR (k * 2 ^ (2 * PB)) * bpow radix2 (-256)) as E.
  { rewrite mult_IZR. change (IZR (2 ^ (2 * PB))) with (bpow radix2 256). rewrite Rmult_assoc, <- bpow_plus. simpl. ring. }
  split; unfold isqrtz; cbn [lo hi]; fold s.
  - rewrite <- (sqrt_square (sc s)) by (apply sc_pos; lia). apply sqrt_le_1_alt. rewrite Q, E.
    apply Rmult_le_compat_r; [apply bpow_ge_0|]. apply IZR_le. lia.
  - rewrite <- (sqrt_square (sc (s + 1))) by (apply sc_pos; lia). apply sqrt_le_1_alt. rewrite Q, E.
    apply Rmult_le_compat_r; [apply bpow_ge_0|]. apply IZR_le. lia.
Qed.

(** ** exp *)
(** the terms x^k / k!, and the sums T n x and T n (-x) *)
Fixpoint termI (i : itv) (n : nat) : itv :=
  match n with O => iz 1 | S k => idivz (imul (termI i k) i) (Z.of_nat (S k)) end.
Lemma termI_nonneg : forall i n, nonneg i = true -> nonneg (termI i n) = true.
Proof.
  intros i n H. induction n; [reflexivity|]. cbn [termI]. pose proof (imul_nonneg _ _ IHn H) as K. apply Z.leb_le in K.
  apply Z.leb_le. cbn [idivz lo]. apply Z.div_pos; lia.
Qed.
Lemma termI_in : forall x i n, nonneg i = true -> inI x i -> inI (x ^ n / INR (fact n)) (termI i n).
Proof.
  intros x i n H Hx. induction n.
  - simpl. replace (1 / 1) with (IZR 1) by field. apply iz_in.
  - cbn [termI]. replace (x ^ S n / INR (fact (S n))) with ((x ^ n / INR (fact n)) * x / IZR (Z.of_nat (S n))).
    + apply idivz_in; [lia|]. apply imul_in; [apply termI_nonneg| | |]; assumption.
    + rewrite fact_simpl, mult_INR, <- INR_IZR_INZ. cbn [pow]. field. split; [apply INR_fact_neq_0|apply not_0_INR; discriminate].
Qed.

(** both sums at once: (term, T n x, T n (-x)) *)
Fixpoint expS (i : itv) (n : nat) : itv * itv * itv :=
  match n with
  | O => (iz 1, iz 1, iz 1)
  | S k =>
      let '(t, p, q) := expS i k in
      let t' := idivz (imul t i) (Z.of_nat (S k)) in
      (t', iadd p t', if Nat.even (S k) then iadd q t' else isub q t')
  end.
Lemma expS_in : forall x i n, nonneg i = true -> inI x i ->
  let '(t, p, q) := expS i n in t = termI i n /\ inI (T n x) p /\ inI (T n (- x)) q.
Proof.
  intros x i n H Hx. induction n.
  - simpl. split; [reflexivity|]. split; apply iz_in.
  - cbn [expS]. destruct (expS i n) as [[t p] q]. destruct IHn as (-> & IP & IQ).
    change (idivz (imul (termI i n) i) (Z.of_nat (S n))) with (termI i (S n)).
    pose proof (termI_in x i (S n) H Hx) as HT. split; [reflexivity|]. split; [apply iadd_in; assumption|]. cbn [T].
    assert ((- x) ^ S n = if Nat.even (S n) then x ^ S n else - x ^ S n) as ->.
    { replace (- x) with (-1 * x) by ring. rewrite Rpow_mult_distr. destruct (Nat.even (S n)) eqn:E.
      - apply Nat.even_spec in E. destruct E as [m ->]. rewrite pow_1_even. ring.
      - assert (Nat.Odd (S n)) as [m Em] by (apply Nat.odd_spec; unfold Nat.odd; rewrite E; reflexivity).
        rewrite Em at 1. replace (2 * m + 1)%nat with (S (2 * m)) by lia. rewrite pow_1_odd. ring. }
    destruct (Nat.even (S n)); [apply iadd_in; assumption|].
    replace (- x ^ S n / INR (fact (S n))) with (- (x ^ S n / INR (fact (S n)))) by (unfold Rdiv; ring).
    apply isub_in; assumption.
Qed.

(** [exp x], x >= 0, by polynomials of degree 2 k + 1 *)
Definition iexpk (k : nat) (i : itv) : itv :=
  let '(_, p, q) := expS i (S (2 * k)) in I_ (lo p) (cdiv (2 ^ (2 * PB)) (lo q)).
Definition iexpk_ok (k : nat) (i : itv) : bool := let '(_, p, q) := expS i (S (2 * k)) in nonneg i && (0 <? lo q)%Z.
Lemma iexpk_in : forall k x i, iexpk_ok k i = true -> inI x i -> inI (exp x) (iexpk k i).
Proof.
  intros k x i H Hx. unfold iexpk_ok, iexpk in *. pose proof (exp_neg_bounds k x) as EB. pose proof (exp_lower (S (2 * k)) x) as EL.
  pose proof (expS_in x i (S (2 * k))) as K. revert H EB EL K. generalize (S (2 * k)). intros N H EB EL K.
  assert (nonneg i = true) as Ni by (destruct (expS i N) as [[? ?] ?]; apply andb_prop in H; tauto).
  specialize (K Ni Hx). destruct (expS i N) as [[t p] q]. destruct K as (_ & [P1 _] & [Q1 _]).
  apply andb_prop in H as [_ Hq]. apply Z.ltb_lt in Hq. pose proof (sc_gt _ Hq) as Hq'.
  assert (0 <= x) as Px by (apply Z.leb_le in Ni; apply sc_pos in Ni; destruct Hx; lra).
  split; cbn [lo hi].
  - eapply Rle_trans; [exact P1|]. apply EL. assumption.
  - replace x with (- - x) by ring. rewrite exp_Ropp.
    destruct (EB Px) as [E _].
    eapply Rle_trans; [|apply sc_div_hi; assumption].
    replace (sc (2 ^ (2 * PB)) / IZR (lo q)) with (/ sc (lo q)).
    + apply Rinv_le_contravar; lra.
    + change (2 ^ (2 * PB))%Z with (2 ^ PB * 2 ^ PB)%Z. rewrite <- sc_ratio by assumption.
      replace (sc (2 ^ PB)) with 1; [field; lra|]. unfold sc. change (IZR (2 ^ PB)) with (bpow radix2 PB). rewrite <- bpow_plus. reflexivity.
Qed.
Definition iexp : itv -> itv := iexpk 20.
Definition iexp_ok : itv -> bool := iexpk_ok 20.
Lemma iexp_in : forall x i, iexp_ok i = true -> inI x i -> inI (exp x) (iexp i).
Proof. exact (iexpk_in 20). Qed.

(** ** pi *)
Definition piterm (k : nat) : itv :=
  let m := Z.of_nat (2 * k + 1) in iadd (iq 2 (3 ^ m * m)) (iq 1 (7 ^ m * m)).
Fixpoint pisum (n : nat) : itv :=
  match n with O => piterm 0 | S k => if Nat.even (S k) then iadd (pisum k) (piterm (S k)) else isub (pisum k) (piterm (S k)) end.

Lemma IZR_pow_nat : forall a m, IZR (a ^ Z.of_nat m) = IZR a ^ m.
Proof. intros a m. rewrite pow_IZR. reflexivity. Qed.

Lemma piterm_in : forall k, inI (PI_2_3_7_tg k) (piterm k).
Proof.
  intros k. unfold PI_2_3_7_tg, piterm, Ratan_seq. rewrite !INR_IZR_INZ. set (m := (2 * k + 1)%nat).
  assert (IZR (Z.of_nat m) <> 0) as Nm by (apply not_0_IZR; lia).
  apply iadd_in.
  - replace (2 * ((/ 3) ^ m / IZR (Z.of_nat m))) with (IZR 2 / IZR (3 ^ Z.of_nat m * Z.of_nat m)).
    + apply iq_in. apply Z.mul_pos_pos; [apply Z.pow_pos_nonneg; lia|lia].
    + rewrite mult_IZR, IZR_pow_nat, pow_inv. field. split; try assumption; apply pow_nonzero; lra.
  - replace ((/ 7) ^ m / IZR (Z.of_nat m)) with (IZR 1 / IZR (7 ^ Z.of_nat m * Z.of_nat m)).
    + apply iq_in. apply Z.mul_pos_pos; [apply Z.pow_pos_nonneg; lia|lia].
    + rewrite mult_IZR, IZR_pow_nat, pow_inv. field. split; try assumption; apply pow_nonzero; lra.
Qed.

Lemma pisum_in : forall n, inI (sum_f_R0 (tg_alt PI_2_3_7_tg) n) (pisum n).
Proof.
  induction n.
  - simpl. unfold tg_alt. simpl ((-1) ^ 0). rewrite Rmult_1_l. apply piterm_in.
  - cbn [sum_f_R0 pisum]. change (tg_alt PI_2_3_7_tg (S n)) with ((-1) ^ S n * PI_2_3_7_tg (S n)). pose proof (piterm_in (S n)) as K. destruct (Nat.even (S n)) eqn:E.
    + apply Nat.even_spec in E. destruct E as [m E]. replace ((-1) ^ S n) with 1 by (rewrite E, pow_1_even; reflexivity). rewrite Rmult_1_l. apply iadd_in; assumption.
    + assert (Nat.Odd (S n)) as [m Em] by (apply Nat.odd_spec; unfold Nat.odd; rewrite E; reflexivity).
      replace ((-1) ^ S n) with (-1) by (rewrite Em; replace (2 * m + 1)%nat with (S (2 * m)) by lia; rewrite pow_1_odd; reflexivity).
      replace (sum_f_R0 (tg_alt PI_2_3_7_tg) n + -1 * PI_2_3_7_tg (S n)) with (sum_f_R0 (tg_alt PI_2_3_7_tg) n - PI_2_3_7_tg (S n)) by ring.
      apply isub_in; assumption.
Qed.

Definition ipik (k : nat) : itv := I_ (4 * lo (pisum (S (2 * k)))) (4 * hi (pisum (2 * k))).
Lemma ipik_in : forall k, inI PI (ipik k).
Proof.
  intros k. pose proof (PI_2_3_7_ineq k) as [A B]. destruct (pisum_in (S (2 * k))) as [C _]. destruct (pisum_in (2 * k)) as [_ D].
  assert (forall z, sc (4 * z) = 4 * sc z) as E by (intros z; unfold sc; rewrite mult_IZR; ring).
  split; unfold ipik; cbn [lo hi]; rewrite E; lra.
Qed.
Definition ipi : itv := Eval vm_compute in ipik 40.
Lemma ipi_in : inI PI ipi.
Proof. replace ipi with (ipik 40) by (vm_compute; reflexivity). apply ipik_in. Qed.
