(** Proofs about the constants of takum.h, by interval arithmetic. *)
From Coq Require Import ZArith Reals Bool List Lia Lra.
From Flocq Require Import Core.Core.
From Verif Require Import Spec CodeFacts SpecFacts ValueFacts RoundFacts WidthFacts WidthProps Machine PowFacts LinOps
  Constants ConstSpec RealBounds.
Local Open Scope R_scope.

(** ** Rounding, from the neighbouring half-way points *)
Lemma enc_between : forall n u x, (6 <= n <= 64)%Z -> (1 < u < umax n)%Z -> mid n (u - 1) < x < mid n u -> enc n x = u.
Proof.
  intros n u x Hn Hu [H1 H2]. pose proof (enc_nearestU n Hn x) as [B N]. unfold umax in *.
  unfold mid in *. replace (u - 1 + 1)%Z with u in H1 by lia.
  assert (cpm n (u - 1) < cpm n u) as L1 by (apply cpm_lt_iff; lia).
  assert (cpm n u < cpm n (u + 1)) as L2 by (apply cpm_lt_iff; lia).
  destruct (Z.lt_trichotomy (enc n x) u) as [K|[K|K]]; [exfalso|assumption|exfalso]; destruct (N u ltac:(lia)) as [D _].
  - assert (cpm n (enc n x) <= cpm n (u - 1)) by (apply cpm_le; lia).
    rewrite (Rabs_left1 (cpm n (enc n x) - x)) in D by lra. unfold Rabs in D. destruct (Rcase_abs (cpm n u - x)); lra.
  - assert (cpm n (u + 1) <= cpm n (enc n x)) by (apply cpm_le; lia).
    rewrite (Rabs_pos_eq (cpm n (enc n x) - x)) in D by lra. unfold Rabs in D. destruct (Rcase_abs (cpm n u - x)); lra.
Qed.

(** mid n u in units of 2^-60 *)
Definition M_mid (n u : Z) : Z := (Xn n u + Xn n (u + 1))%Z.
Lemma mid_M : forall n u, mid n u = IZR (M_mid n u) * bpow radix2 (-60).
Proof.
  intros n u. unfold mid, cpm, M_mid. rewrite plus_IZR. change (IZR (2 ^ 59)) with (bpow radix2 59).
  replace (bpow radix2 (-60)) with (/ bpow radix2 59 * / 2); [unfold Rdiv; ring|].
  change (/ 2) with (bpow radix2 (-1)). rewrite <- bpow_opp, <- bpow_plus. reflexivity.
Qed.

(** e^(M / 2^61) < x and x < e^(M / 2^61) *)
Definition pt (z : Z) : itv := I_ z z.
Definition log_above (M : Z) (i : itv) : bool :=
  if (0 <=? M)%Z then iexp_ok (pt (M * 2 ^ 67)) && (hi (iexp (pt (M * 2 ^ 67))) <? lo i)%Z
  else let e := iexp (pt (- M * 2 ^ 67)) in
       iexp_ok (pt (- M * 2 ^ 67)) && (0 <? lo i)%Z && (0 <? lo e)%Z && (2 ^ 256 <? lo i * lo e)%Z.
Definition log_below (M : Z) (i : itv) : bool :=
  if (0 <=? M)%Z then iexp_ok (pt (M * 2 ^ 67)) && (hi i <? lo (iexp (pt (M * 2 ^ 67))))%Z
  else let e := iexp (pt (- M * 2 ^ 67)) in
       iexp_ok (pt (- M * 2 ^ 67)) && (0 <? hi i)%Z && (hi i * hi e <? 2 ^ 256)%Z.

Lemma pt_in : forall M, inI (IZR M * bpow radix2 (-60) / 2) (pt (M * 2 ^ 67)).
Proof.
  intros M. assert (sc (M * 2 ^ 67) = IZR M * bpow radix2 (-60) / 2) as E.
  { unfold sc. rewrite mult_IZR. change (IZR (2 ^ 67)) with (bpow radix2 67). rewrite Rmult_assoc, <- bpow_plus.
    change (67 + - PB)%Z with (-61)%Z. replace (bpow radix2 (-61)) with (bpow radix2 (-60) * / 2); [field|].
    change (/ 2) with (bpow radix2 (-1)). rewrite <- bpow_plus. reflexivity. }
  split; cbn [pt lo hi]; rewrite E; lra.
Qed.
Lemma sc_lt : forall a b, (a < b)%Z -> sc a < sc b.
Proof. intros a b H. apply Rmult_lt_compat_r; [apply bpow_gt_0|]. apply IZR_lt. assumption. Qed.
Lemma sc_prod : forall a b, sc a * sc b = IZR (a * b) * bpow radix2 (-256).
Proof.
  intros a b. unfold sc. rewrite mult_IZR. replace (bpow radix2 (-256)) with (bpow radix2 (- PB) * bpow radix2 (- PB)) by (rewrite <- bpow_plus; reflexivity). ring.
Qed.

Lemma ln_lt_iff : forall a x, 0 < x -> (exp (a / 2) < x <-> a < 2 * ln x) /\ (x < exp (a / 2) <-> 2 * ln x < a).
Proof.
  intros a x P. assert (x = exp (ln x)) as E by (rewrite exp_ln; auto). split; split; intros H.
  - rewrite E in H. apply exp_lt_inv in H. lra.
  - rewrite E. apply exp_increasing. lra.
  - rewrite E in H. apply exp_lt_inv in H. lra.
  - rewrite E. apply exp_increasing. lra.
Qed.

Lemma neg_exp : forall M : Z, exp (IZR M * bpow radix2 (-60) / 2) = / exp (IZR (- M) * bpow radix2 (-60) / 2).
Proof. intros M. rewrite <- exp_Ropp. f_equal. rewrite opp_IZR. unfold Rdiv. ring. Qed.

Lemma log_above_ok : forall n u x i, log_above (M_mid n u) i = true -> inI x i -> 0 < x -> mid n u < 2 * ln x.
Proof.
  intros n u x i H [L _] P. apply ln_lt_iff; [assumption|]. rewrite mid_M. revert H. generalize (M_mid n u). intros M H.
  unfold log_above in H. destruct (Z.leb_spec 0 M) as [S|S].
  - apply andb_prop in H as [O H]. apply Z.ltb_lt in H. destruct (iexp_in _ _ O (pt_in M)) as [_ U].
    apply sc_lt in H. lra.
  - cbv zeta in H. apply andb_prop in H as [H H3]. apply andb_prop in H as [H H2]. apply andb_prop in H as [O H1].
    apply Z.ltb_lt in H1, H2, H3. destruct (iexp_in _ _ O (pt_in (- M))) as [U _].
    set (e := iexp _) in *. set (y := IZR (- M) * bpow radix2 (-60) / 2) in *.
    rewrite neg_exp. fold y. pose proof (exp_pos y) as EP.
    apply Rmult_lt_reg_r with (exp y); [assumption|]. rewrite Rinv_l by lra.
    apply Rlt_le_trans with (sc (lo i) * sc (lo e)).
    + rewrite sc_prod. replace 1 with (IZR (2 ^ 256) * bpow radix2 (-256)) by (change (IZR (2 ^ 256)) with (bpow radix2 256); rewrite <- bpow_plus; reflexivity).
      apply Rmult_lt_compat_r; [apply bpow_gt_0|apply IZR_lt; assumption].
    + apply sc_gt in H1, H2. apply Rmult_le_compat; lra.
Qed.
Lemma log_below_ok : forall n u x i, log_below (M_mid n u) i = true -> inI x i -> 0 < x -> 2 * ln x < mid n u.
Proof.
  intros n u x i H [_ L] P. apply ln_lt_iff; [assumption|]. rewrite mid_M. revert H. generalize (M_mid n u). intros M H.
  unfold log_below in H. destruct (Z.leb_spec 0 M) as [S|S].
  - apply andb_prop in H as [O H]. apply Z.ltb_lt in H. destruct (iexp_in _ _ O (pt_in M)) as [U _].
    apply sc_lt in H. lra.
  - cbv zeta in H. apply andb_prop in H as [H H3]. apply andb_prop in H as [O H1].
    apply Z.ltb_lt in H1, H3. destruct (iexp_in _ _ O (pt_in (- M))) as [_ U].
    set (e := iexp _) in *. set (y := IZR (- M) * bpow radix2 (-60) / 2) in *.
    rewrite neg_exp. fold y. pose proof (exp_pos y) as EP.
    apply Rmult_lt_reg_r with (exp y); [assumption|]. rewrite Rinv_l by lra.
    apply Rle_lt_trans with (sc (hi i) * sc (hi e)).
    + apply Rmult_le_compat; lra.
    + rewrite sc_prod. replace 1 with (IZR (2 ^ 256) * bpow radix2 (-256)) by (change (IZR (2 ^ 256)) with (bpow radix2 256); rewrite <- bpow_plus; reflexivity).
      apply Rmult_lt_compat_r; [apply bpow_gt_0|apply IZR_lt; assumption].
Qed.

(** Lin (M / 2^60) in units of 2^-128 *)
Definition lin_M (M : Z) : Z := ((2 ^ 60 + M mod 2 ^ 60) * 2 ^ (M / 2 ^ 60 + 68))%Z.
Lemma lin_M_ok : forall M, (-68 <= M / 2 ^ 60)%Z -> Lin (IZR M * bpow radix2 (-60)) = sc (lin_M M).
Proof.
  intros M H. unfold Lin, lin_M, sc.
  assert (Zfloor (IZR M * bpow radix2 (-60)) = M / 2 ^ 60)%Z as EF by apply (Zfloor_div M (2 ^ 60)%Z ltac:(lia)).
  rewrite EF. rewrite mult_IZR, plus_IZR, Z.mod_eq, minus_IZR, mult_IZR by lia.
  rewrite (IZR_pow2 (M / 2 ^ 60 + 68)) by lia. change (IZR (2 ^ 60)) with (bpow radix2 60).
  set (h := (M / 2 ^ 60)%Z) in *. rewrite Rmult_assoc, <- bpow_plus.
  replace (h + 68 + - PB)%Z with (-60 + h)%Z by (unfold PB; lia). rewrite bpow_plus.
  replace (bpow radix2 (-60)) with (/ bpow radix2 60) by reflexivity.
  field. pose proof (bpow_gt_0 radix2 60). lra.
Qed.

Definition lin_above (M : Z) (i : itv) : bool := (-68 <=? M / 2 ^ 60)%Z && (lin_M M <? lo i)%Z.
Definition lin_below (M : Z) (i : itv) : bool := (-68 <=? M / 2 ^ 60)%Z && (hi i <? lin_M M)%Z.

Lemma lin_coord_pos : forall x y, 0 < x -> (Lin y < x -> y < lin_coord x) /\ (x < Lin y -> lin_coord x < y).
Proof.
  intros x y P. assert (x <> 0) as N by lra. split; intros H; apply Rnot_le_lt; intros K.
  - apply lin_coord_le_iff in K; [|assumption]. rewrite Rabs_pos_eq in K by lra. lra.
  - apply lin_coord_ge_iff in K; [|assumption]. rewrite Rabs_pos_eq in K by lra. lra.
Qed.
Lemma lin_above_ok : forall n u x i, lin_above (M_mid n u) i = true -> inI x i -> 0 < x -> mid n u < lin_coord x.
Proof.
  intros n u x i H [L _] P. apply andb_prop in H as [H1 H2]. apply Z.leb_le in H1. apply Z.ltb_lt in H2.
  apply lin_coord_pos; [assumption|]. rewrite mid_M, lin_M_ok by assumption. apply sc_lt in H2. lra.
Qed.
Lemma lin_below_ok : forall n u x i, lin_below (M_mid n u) i = true -> inI x i -> 0 < x -> lin_coord x < mid n u.
Proof.
  intros n u x i H [_ L] P. apply andb_prop in H as [H1 H2]. apply Z.leb_le in H1. apply Z.ltb_lt in H2.
  apply lin_coord_pos; [assumption|]. rewrite mid_M, lin_M_ok by assumption. apply sc_lt in H2. lra.
Qed.

Definition above (k : kind) (n u : Z) (i : itv) : bool :=
  match k with Logarithmic => log_above (M_mid n u) i | Linear => lin_above (M_mid n u) i end.
Definition below (k : kind) (n u : Z) (i : itv) : bool :=
  match k with Logarithmic => log_below (M_mid n u) i | Linear => lin_below (M_mid n u) i end.
Lemma above_ok : forall k n u x i, above k n u i = true -> inI x i -> 0 < x -> mid n u < coord k x.
Proof.
  intros [] n u x i H Hx P; cbn [coord above] in *.
  - unfold log_coord. rewrite Rabs_pos_eq by lra. apply (log_above_ok n u x i); assumption.
  - apply (lin_above_ok n u x i); assumption.
Qed.
Lemma below_ok : forall k n u x i, below k n u i = true -> inI x i -> 0 < x -> coord k x < mid n u.
Proof.
  intros [] n u x i H Hx P; cbn [coord below] in *.
  - unfold log_coord. rewrite Rabs_pos_eq by lra. apply (log_below_ok n u x i); assumption.
  - apply (lin_below_ok n u x i); assumption.
Qed.

Definition good (i : itv) (k : kind) (n t : Z) : bool :=
  (0 <? lo i)%Z && (1 <? t)%Z && (t <? 2 ^ (n - 1) - 1)%Z && above k n (t - 1) i && below k n t i.
Lemma in_pos : forall x i, (0 < lo i)%Z -> inI x i -> 0 < x.
Proof. intros x i H [L _]. apply sc_gt in H. lra. Qed.
Lemma good_ok : forall i k n t x, (6 <= n <= 64)%Z -> good i k n t = true -> inI x i -> rounds k n x t.
Proof.
  intros i k n t x Hn H Hx. unfold good in H. apply andb_prop in H as [H H5]. apply andb_prop in H as [H H4].
  apply andb_prop in H as [H H3]. apply andb_prop in H as [H1 H2]. apply Z.ltb_lt in H1, H2, H3.
  pose proof (in_pos x i H1 Hx) as P. right. split; [lra|]. rewrite Rlt_bool_false by lra.
  assert (enc n (coord k x) = t) as E.
  { apply enc_between; [assumption|unfold umax; lia|]. split; [apply (above_ok k n (t - 1) x i)|apply (below_ok k n t x i)]; assumption. }
  pose proof (enc_nearest_sg n false (coord k x) Hn) as K. unfold sg in K. rewrite Rmult_1_l, E in K. exact K.
Qed.

(** too large by one *)
Definition bad (i : itv) (k : kind) (n t : Z) : bool :=
  (0 <? lo i)%Z && (1 <? t)%Z && (t <? 2 ^ (n - 1) - 1)%Z && below k n (t - 1) i.
Lemma bad_ok : forall i k n t x, (6 <= n <= 64)%Z -> bad i k n t = true -> inI x i -> ~ rounds k n x t.
Proof.
  intros i k n t x Hn H Hx R. unfold bad in H. apply andb_prop in H as [H H5].
  apply andb_prop in H as [H H3]. apply andb_prop in H as [H1 H2]. apply Z.ltb_lt in H1, H2, H3.
  pose proof (in_pos x i H1 Hx) as P. destruct R as [[E _]|[_ (_ & _ & N)]]; [lra|].
  rewrite Rlt_bool_false in N by lra. pose proof (below_ok k n (t - 1) x i H5 Hx P) as B.
  assert (forall v, (0 < v < 2 ^ (n - 1))%Z -> is_real_takum n v /\ has_sign false v /\ l_ n v = cpm n v) as A.
  { intros v Hv. pose proof (asm_real n false v Hv) as Hr. unfold asm in Hr. split; [assumption|]. split; [simpl; lia|].
    rewrite l_sg_cpm by (assumption || lia). replace (v <? 0)%Z with false by (symmetry; apply Z.ltb_ge; lia).
    unfold sg. rewrite Rmult_1_l. f_equal. unfold low. apply Z.mod_small. lia. }
  destruct (A t ltac:(lia)) as (_ & _ & E1). destruct (A (t - 1)%Z ltac:(lia)) as (R2 & S2 & E2).
  destruct (N (t - 1)%Z R2 S2) as [D _]. rewrite E1, E2 in D. unfold mid in B. replace (t - 1 + 1)%Z with t in B by lia.
  assert (cpm n (t - 1) < cpm n t) as L1 by (apply cpm_lt_iff; lia).
  rewrite (Rabs_pos_eq (cpm n t - coord k x)) in D by lra. unfold Rabs in D. destruct (Rcase_abs (cpm n (t - 1) - coord k x)); lra.
Qed.

(** ** Intervals of the constants *)
Lemma sc_Z : forall a, sc (a * 2 ^ PB) = IZR a.
Proof.
  intros a. unfold sc. rewrite mult_IZR. change (IZR (2 ^ PB)) with (bpow radix2 PB). rewrite Rmult_assoc, <- bpow_plus. simpl. ring.
Qed.
Lemma ln_in_gen : forall a l h e1 e2, (0 < a)%Z -> inI (exp (sc l)) e1 -> inI (exp (sc h)) e2 ->
  (hi e1 <= a * 2 ^ PB)%Z -> (a * 2 ^ PB <= lo e2)%Z -> sc l <= ln (IZR a) <= sc h.
Proof.
  intros a l h e1 e2 P [_ A] [B _] H3 H4. apply sc_le in H3, H4. rewrite sc_Z in *. apply IZR_lt in P.
  split; apply Rnot_lt_le; intros K; apply exp_increasing in K; rewrite exp_ln in K by assumption; lra.
Qed.
Lemma pt_sc : forall z, inI (sc z) (pt z).
Proof. intros z. split; cbn [lo hi pt]; lra. Qed.
Lemma ln_in : forall a i, (0 < a)%Z -> iexp_ok (pt (lo i)) = true -> iexp_ok (pt (hi i)) = true ->
  (hi (iexp (pt (lo i))) <=? a * 2 ^ PB)%Z = true -> (a * 2 ^ PB <=? lo (iexp (pt (hi i))))%Z = true -> inI (ln (IZR a)) i.
Proof.
  intros a i P H1 H2 H3 H4.
  exact (ln_in_gen a (lo i) (hi i) (iexp (pt (lo i))) (iexp (pt (hi i))) P (iexp_in _ _ H1 (pt_sc _)) (iexp_in _ _ H2 (pt_sc _))
    (Zle_bool_imp_le _ _ H3) (Zle_bool_imp_le _ _ H4)).
Qed.

Definition iln2 : itv := I_ 235865763225513294137944142764154418863 235865763225513294137944142764154549935.
Definition iln10 : itv := I_ 783529105480883066805338482703447304355 783529105480883066805338482703447435427.
Lemma ln2_in : inI (ln 2) iln2.
Proof. apply (ln_in 2 iln2); [reflexivity|vm_compute; reflexivity..]. Qed.
Lemma ln10_in : inI (ln 10) iln10.
Proof. apply (ln_in 10 iln10); [reflexivity|vm_compute; reflexivity..]. Qed.

Definition ipik_ (k m : Z) : itv := idivz (imul (iz k) ipi) m.
Lemma ipik_in_ : forall k m, (0 <= k)%Z -> (0 < m)%Z -> inI (IZR k * PI / IZR m) (ipik_ k m).
Proof.
  intros k m Hk Hm. apply idivz_in; [assumption|]. apply imul_in; [|reflexivity|apply iz_in|apply ipi_in].
  apply Z.leb_le. cbn [iz lo]. apply Z.mul_nonneg_nonneg; [assumption|apply Z.pow_nonneg; lia].
Qed.

Definition const_itv (c : constant) : option itv :=
  match c with
  | c_2_PI => Some (ipik_ 2 1) | c_2_PI_OVER_3 => Some (ipik_ 2 3) | c_2_PI_OVER_5 => Some (ipik_ 2 5)
  | c_3_PI => Some (ipik_ 3 1) | c_3_PI_OVER_2 => Some (ipik_ 3 2) | c_3_PI_OVER_4 => Some (ipik_ 3 4) | c_3_PI_OVER_5 => Some (ipik_ 3 5)
  | c_4_PI => Some (ipik_ 4 1) | c_4_PI_OVER_3 => Some (ipik_ 4 3) | c_4_PI_OVER_5 => Some (ipik_ 4 5)
  | c_5_PI => Some (ipik_ 5 1) | c_5_PI_OVER_2 => Some (ipik_ 5 2) | c_5_PI_OVER_3 => Some (ipik_ 5 3)
  | c_5_PI_OVER_4 => Some (ipik_ 5 4) | c_5_PI_OVER_6 => Some (ipik_ 5 6)
  | c_6_PI => Some (ipik_ 6 1) | c_6_PI_OVER_5 => Some (ipik_ 6 5)
  | c_GAMMA => None
  | c_LB_10 => Some (idiv iln10 iln2) | c_LB_E => Some (idiv (iz 1) iln2)
  | c_LG_2 => Some (idiv iln2 iln10) | c_LG_E => Some (idiv (iz 1) iln10)
  | c_LN_10 => Some iln10 | c_LN_2 => Some iln2
  | c_ONE => Some (iz 1)
  | c_PHI => Some (idivz (iadd (iz 1) (isqrtz 5)) 2)
  | c_PI => Some (ipik_ 1 1) | c_PI_OVER_2 => Some (ipik_ 1 2) | c_PI_OVER_3 => Some (ipik_ 1 3)
  | c_PI_OVER_4 => Some (ipik_ 1 4) | c_PI_OVER_5 => Some (ipik_ 1 5) | c_PI_OVER_6 => Some (ipik_ 1 6)
  | c_SQUARE_ROOT_2 => Some (isqrtz 2) | c_SQUARE_ROOT_3 => Some (isqrtz 3)
  | c_SQUARE_ROOT_5 => Some (isqrtz 5) | c_SQUARE_ROOT_6 => Some (isqrtz 6)
  end.

Lemma const_in : forall c x i, is_constant c x -> const_itv c = Some i -> inI x i.
Proof.
  intros c x i H E. destruct c; cbn [is_constant const_itv] in *; try discriminate; injection E as <-; subst x.
  all: try match goal with |- inI ?r (ipik_ ?k ?m) => replace r with (IZR k * PI / IZR m) by field; apply ipik_in_; lia end.
  all: try match goal with |- inI (sqrt (IZR ?k)) _ => apply (isqrtz_in k); lia end.
  - apply idiv_in; [reflexivity|reflexivity|apply ln10_in|apply ln2_in].
  - apply idiv_in; [reflexivity|reflexivity|apply (iz_in 1)|apply ln2_in].
  - apply idiv_in; [reflexivity|reflexivity|apply ln2_in|apply ln10_in].
  - apply idiv_in; [reflexivity|reflexivity|apply (iz_in 1)|apply ln10_in].
  - apply ln10_in.
  - apply ln2_in.
  - apply (iz_in 1).
  - apply (idivz_in _ _ 2); [lia|]. apply iadd_in; [apply (iz_in 1)|apply isqrtz_in; lia].
Qed.

(** ** All constants *)
(** the two that are not correctly rounded *)
Definition wrong (k : kind) (n : Z) (c : constant) : bool :=
  match k, c with Logarithmic, c_6_PI | Logarithmic, c_6_PI_OVER_5 => (n =? 64)%Z | _, _ => false end.
Definition check1 (i : itv) (c : constant) (k : kind) (n t : Z) : bool := wrong k n c || good i k n t.
Definition check (e : constant * (Z * Z * Z * Z) * (Z * Z * Z * Z)) : bool :=
  let '(c, (a8, a16, a32, a64), (b8, b16, b32, b64)) := e in
  match const_itv c with
  | None => true
  | Some i =>
      check1 i c Logarithmic 8 a8 && check1 i c Logarithmic 16 a16 && check1 i c Logarithmic 32 a32 && check1 i c Logarithmic 64 a64 &&
      check1 i c Linear 8 b8 && check1 i c Linear 16 b16 && check1 i c Linear 32 b32 && check1 i c Linear 64 b64
  end.
Lemma check_all : forallb check constants = true.
Proof. vm_compute. reflexivity. Qed.

Lemma forallb_use : forall (p : _ -> bool) (l : list (constant * (Z * Z * Z * Z) * (Z * Z * Z * Z))) e,
  forallb p l = true -> In e l -> p e = true.
Proof. intros p l e H. apply forallb_forall. assumption. Qed.

Lemma constants_rounded : forall k n c t x, header k n c t -> is_constant c x -> c <> c_GAMMA -> wrong k n c = false -> rounds k n x t.
Proof.
  assert (forall c x a8 a16 a32 a64 b8 b16 b32 b64, In (c, (a8, a16, a32, a64), (b8, b16, b32, b64)) constants ->
    is_constant c x -> c <> c_GAMMA ->
    let ok := fun k n t => wrong k n c = false -> rounds k n x t in
    ok Logarithmic 8%Z a8 /\ ok Logarithmic 16%Z a16 /\ ok Logarithmic 32%Z a32 /\ ok Logarithmic 64%Z a64 /\
    ok Linear 8%Z b8 /\ ok Linear 16%Z b16 /\ ok Linear 32%Z b32 /\ ok Linear 64%Z b64) as H.
  { intros c x a8 a16 a32 a64 b8 b16 b32 b64 HI Hx Hg ok.
    pose proof (forallb_use _ _ _ check_all HI) as C. unfold check in C.
    assert (exists i, const_itv c = Some i) as [i Ei] by (destruct c; try (eexists; reflexivity); contradiction).
    rewrite Ei in C. pose proof (const_in c x i Hx Ei) as Hi.
    assert (forall k n t, (6 <= n <= 64)%Z -> check1 i c k n t = true -> ok k n t) as K.
    { intros k n t Hn K W. unfold check1 in K. rewrite W in K. apply (good_ok i k n t x); assumption. }
    repeat (apply andb_prop in C as [C ?]). repeat split; apply K; (lia || assumption). }
  intros k n c t x Hh. destruct Hh as [c t t16 t32 t64 l Hh|c t8 t t32 t64 l Hh|c t8 t16 t t64 l Hh|c t8 t16 t32 t l Hh
    |c t t16 t32 t64 l Hh|c t8 t t32 t64 l Hh|c t8 t16 t t64 l Hh|c t8 t16 t32 t l Hh];
    destruct l as [[[l1 l2] l3] l4]; intros Hx Hg; pose proof (H _ x _ _ _ _ _ _ _ _ Hh Hx Hg) as K; cbv zeta in K; tauto.
Qed.

Lemma six_pi_wrong : header Logarithmic 64 c_6_PI 6178647390186139600 /\ ~ rounds Logarithmic 64 (6 * PI) 6178647390186139600 /\
  rounds Logarithmic 64 (6 * PI) 6178647390186139599.
Proof.
  pose proof (ipik_in_ 6 1 ltac:(lia) ltac:(lia)) as H. replace (IZR 6 * PI / IZR 1) with (6 * PI) in H by field.
  split; [|split].
  - eapply header_log64. unfold constants. repeat (try (left; reflexivity); right).
  - refine (bad_ok _ _ _ _ _ _ _ H); [lia|vm_compute; reflexivity].
  - refine (good_ok _ _ _ _ _ _ _ H); [lia|vm_compute; reflexivity].
Qed.
Lemma six_pi_5_wrong : header Logarithmic 64 c_6_PI_OVER_5 5664909467550631402 /\ ~ rounds Logarithmic 64 (6 * PI / 5) 5664909467550631402 /\
  rounds Logarithmic 64 (6 * PI / 5) 5664909467550631401.
Proof.
  pose proof (ipik_in_ 6 5 ltac:(lia) ltac:(lia)) as H.
  split; [|split].
  - eapply header_log64. unfold constants. repeat (try (left; reflexivity); right).
  - refine (bad_ok _ _ _ _ _ _ _ H); [lia|vm_compute; reflexivity].
  - refine (good_ok _ _ _ _ _ _ _ H); [lia|vm_compute; reflexivity].
Qed.
