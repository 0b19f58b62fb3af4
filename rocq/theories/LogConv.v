(** Conversions between logarithmic takums and floats, with a mathematical
    library meeting the assumptions of LibmSpec.v. *)
From Coq Require Import ZArith Reals Bool Lia Lra.
From Flocq Require Import Core.Core IEEE754.BinarySingleNaN.
From Flocq Require Import Relative.
From Verif Require Import CModel FloatModel Libm LibmSpec WidthConv Spec CodeFacts SpecFacts ValueFacts RoundFacts WidthFacts WidthApi WidthProps Codec FloatFacts DecodeFacts EncodeFacts PhiFacts
  Conversion Arith Wrappers Machine LogFacts PowFacts LogProps LinFacts LinArith RealBounds NearFacts WrapApi WrapTotal FloatSym.
Local Open Scope R_scope.

(** ** Elementary bounds *)
Lemma ln_lt_sub : forall x, 0 < x -> ln x <= x - 1.
Proof. intros x H. pose proof (exp_ineq1_le (ln x)). rewrite exp_ln in * by assumption. lra. Qed.
Lemma ln_ge_sub : forall x, 0 < x -> 1 - / x <= ln x.
Proof. intros x H. pose proof (ln_lt_sub (/ x) (Rinv_0_lt_compat _ H)). rewrite ln_Rinv in * by assumption. lra. Qed.
Lemma exp_near : forall e, Rabs e <= 1 / 2 -> Rabs (exp e - 1) <= Rabs e * (1 + 2 * Rabs e).
Proof.
  intros e H. pose proof (exp_ineq1_le e) as L. pose proof (exp_ineq1_le (- e)) as M. rewrite exp_Ropp in M.
  pose proof (exp_pos e) as P. 
  assert (exp e <= / (1 - e)) as U.
  { rewrite <- (Rinv_inv (exp e)). apply Rinv_le_contravar; [|lra]. apply Rabs_le_inv in H. lra. }
  apply Rabs_le_inv in H. assert (/ (1 - e) = 1 + e + e * e / (1 - e)) as E by (field; lra).
  assert (e * e / (1 - e) <= 2 * (e * e)) as Q.
  { assert (/ (1 - e) <= 2). { replace 2 with (/ (1 / 2)) by field. apply Rinv_le_contravar; lra. } unfold Rdiv. nra. }
  assert (Rabs e * Rabs e = e * e) as A by (rewrite <- Rabs_mult; apply Rabs_pos_eq; nra).
  replace (Rabs e * (1 + 2 * Rabs e)) with (Rabs e + 2 * (e * e)) by (rewrite <- A; ring).
  pose proof (Rle_abs e). pose proof (Rle_abs (- e)) as N. rewrite Rabs_Ropp in N. apply Rabs_le. nra.
Qed.

Lemma exp_le_inv : forall a b, exp a <= exp b -> a <= b.
Proof. intros a b H. destruct (Rle_or_lt a b) as [|K]; [assumption|]. apply exp_increasing in K. lra. Qed.

(** ** sqrt(e) *)
Definition sqrte_exp (F : fmt) : Z := match F with f32 => -24 | f64 => -54 | _ => -65 end.
Definition sq (F : fmt) : flt F := match F with f32 => fcast f32 (SQRTE x86_64) | f64 => fcast f64 (SQRTE x86_64) | f80 => SQRTE x86_64 | f128 => fzero f128 end.

Definition ihalf : itv := iq 1 2.
Lemma isqrte_ok : iexp_ok ihalf = true.
Proof. vm_compute. reflexivity. Qed.
Lemma sc_gt_inv : forall a, 0 < sc a -> (0 < a)%Z.
Proof. intros a H. destruct (Z_lt_le_dec 0 a) as [|K]; [assumption|]. apply sc_le in K. rewrite sc_0 in K. lra. Qed.
(** [m 2^e] is within a factor 1 +- d 2^-128 of an interval *)
Definition near_check (i : itv) (m e d : Z) : bool :=
  (0 <=? e + PB)%Z && (0 <? lo i)%Z && (0 <? d)%Z &&
  (m * 2 ^ (e + PB) * 2 ^ PB <=? lo i * (2 ^ PB + d))%Z && (hi i * 2 ^ PB <=? m * 2 ^ (e + PB) * (2 ^ PB + d))%Z.
Lemma near_check_ln : forall x i m e d, near_check i m e d = true -> inI (exp x) i -> Rabs (ln (IZR m * bpow radix2 e) - x) <= sc d.
Proof.
  intros x i m e d C [H1 H2]. unfold near_check in C. do 4 (apply andb_prop in C as [C ?]).
  apply Z.leb_le in C. apply Z.ltb_lt in H3, H4. apply Z.leb_le in H, H0.
  assert (IZR m * bpow radix2 e = sc (m * 2 ^ (e + PB))) as Em.
  { unfold sc. rewrite mult_IZR, IZR_pow2 by assumption. rewrite Rmult_assoc, <- bpow_plus. f_equal. f_equal. lia. }
  rewrite Em. set (M := (m * 2 ^ (e + PB))%Z) in *.
  apply IZR_le in H, H0. rewrite !mult_IZR, !plus_IZR in H, H0.
  pose proof (sc_gt _ H3) as D0. pose proof (sc_gt _ H4) as L0.
  assert (0 < sc M) as M0.
  { apply sc_gt. apply lt_IZR. pose proof (exp_pos x). assert (0 < sc (hi i)) as Hh by lra. apply sc_gt_inv in Hh. apply IZR_lt in Hh.
    assert (0 < IZR (2 ^ PB)) as P2 by (apply IZR_lt; reflexivity). assert (0 < IZR d) as Hd by (apply IZR_lt; assumption).
    pose proof (Rmult_lt_0_compat _ _ Hh P2). destruct (Rle_or_lt (IZR M) 0); [exfalso; nra|assumption]. }
  assert (sc d * IZR (2 ^ PB) = IZR d) as Ed by (apply sc_scale).
  assert (0 < IZR (2 ^ PB)) as PP by (apply IZR_lt; reflexivity). pose proof (bpow_gt_0 radix2 (- PB)) as BP.
  assert (sc M <= sc (lo i) * (1 + sc d)) as U.
  { unfold sc at 1 2. apply Rmult_le_reg_r with (IZR (2 ^ PB)); [assumption|]. rewrite <- Ed in H0.
    replace (IZR M * bpow radix2 (- PB) * IZR (2 ^ PB)) with (bpow radix2 (- PB) * (IZR M * IZR (2 ^ PB))) by ring.
    replace (IZR (lo i) * bpow radix2 (- PB) * (1 + sc d) * IZR (2 ^ PB)) with (bpow radix2 (- PB) * (IZR (lo i) * (IZR (2 ^ PB) + sc d * IZR (2 ^ PB)))) by ring.
    apply Rmult_le_compat_l; lra. }
  assert (sc (hi i) <= sc M * (1 + sc d)) as V.
  { unfold sc at 1 2. apply Rmult_le_reg_r with (IZR (2 ^ PB)); [assumption|]. rewrite <- Ed in H.
    replace (IZR (hi i) * bpow radix2 (- PB) * IZR (2 ^ PB)) with (bpow radix2 (- PB) * (IZR (hi i) * IZR (2 ^ PB))) by ring.
    replace (IZR M * bpow radix2 (- PB) * (1 + sc d) * IZR (2 ^ PB)) with (bpow radix2 (- PB) * (IZR M * (IZR (2 ^ PB) + sc d * IZR (2 ^ PB)))) by ring.
    apply Rmult_le_compat_l; lra. }
  apply Rabs_le. split.
  - assert (x <= ln (sc M) + sc d); [|lra]. apply exp_le_inv. rewrite exp_plus, exp_ln by assumption.
    pose proof (exp_ineq1_le (sc d)). nra.
  - assert (ln (sc M) <= x + sc d); [|lra]. apply exp_le_inv. rewrite exp_plus, exp_ln by assumption.
    pose proof (exp_ineq1_le (sc d)). pose proof (exp_pos x). nra.
Qed.

Lemma sqrte_isf : forall F, F <> f128 -> isf (sq F) (match F with f32 => 13830476 * bpow radix2 (-23) | f64 => 7425180500362908 * bpow radix2 (-52) | _ => 15206769664743235148 * bpow radix2 (-63) end).
Proof.
  assert (forall F (y : flt F) m e, B2SF y = SpecFloat.S754_finite false m e -> isf y (IZR (Zpos m) * bpow radix2 e)) as K.
  { intros F y m e H. destruct y; try discriminate. injection H as -> -> ->. split; reflexivity. }
  intros [] H; try contradiction; apply K; vm_compute; reflexivity.
Qed.
Lemma sqrte_ln : forall F, F <> f128 -> exists s, isf (sq F) s /\ 1 < s < 2 /\ Rabs (ln s - / 2) <= bpow radix2 (sqrte_exp F).
Proof.
  intros F H. eexists. split; [apply sqrte_isf; assumption|].
  assert (inI (exp (/ 2)) (iexp ihalf)) as I. { apply iexp_in; [exact isqrte_ok|]. replace (/ 2) with (IZR 1 / IZR 2) by lra. apply iq_in. lia. }
  split; [destruct F; simpl; lra|].
  destruct F; [| | |contradiction]; cbv iota; cbn [sqrte_exp].
  - replace (bpow radix2 (-24)) with (sc (2 ^ (PB - 24))) by (unfold sc, PB; rewrite IZR_pow2 by lia; rewrite <- bpow_plus; reflexivity).
    apply (near_check_ln (/ 2) (iexp ihalf)); [vm_compute; reflexivity|exact I].
  - replace (bpow radix2 (-54)) with (sc (2 ^ (PB - 54))) by (unfold sc, PB; rewrite IZR_pow2 by lia; rewrite <- bpow_plus; reflexivity).
    apply (near_check_ln (/ 2) (iexp ihalf)); [vm_compute; reflexivity|exact I].
  - replace (bpow radix2 (-65)) with (sc (2 ^ (PB - 65))) by (unfold sc, PB; rewrite IZR_pow2 by lia; rewrite <- bpow_plus; reflexivity).
    apply (near_check_ln (/ 2) (iexp ihalf)); [vm_compute; reflexivity|exact I].
Qed.

(** ** pow(sqrt(e), l) *)
Lemma close_ln : forall k F r (y : flt F), (k <= 3)%Z -> close k F r y -> 0 < r -> bpow radix2 (3 - femax F) <= r <= bpow radix2 (femax F - 1) ->
  is_finite y = true /\ 0 < B2R y /\ Rabs (ln (B2R y) - ln r) <= bpow radix2 (k - fprec F) * (1 + 2 * bpow radix2 (k - fprec F)) /\
  Rabs (B2R y - r) <= bpow radix2 (k - fprec F) * r.
Proof.
  intros k F r y Hk (_ & _ & _ & Cf & Ca & _) R0 Hr. rewrite (Rabs_pos_eq r) in * by lra. specialize (Cf (proj2 Hr)). specialize (Ca Hr).
  set (e := bpow radix2 (k - fprec F)) in *.
  assert (0 < e <= 1 / 4) as He. { split; [apply bpow_gt_0|]. replace (1 / 4) with (bpow radix2 (-2)) by (simpl; lra). apply bpow_le. pose proof (fmt_pos F). lia. }
  apply Rabs_le_inv in Ca as Ca'. assert (0 < B2R y) as Y0 by nra. split; [assumption|]. split; [assumption|]. split; [|assumption].
  replace (ln (B2R y) - ln r) with (ln (B2R y / r)).
  2:{ unfold Rdiv. rewrite ln_mult, ln_Rinv by (assumption || apply Rinv_0_lt_compat; assumption). ring. }
  assert (1 - e <= B2R y / r <= 1 + e) as Q.
  { split; apply Rmult_le_reg_r with r; try assumption; unfold Rdiv; rewrite ?Rmult_assoc, Rinv_l, ?Rmult_1_r by lra; nra. }
  set (q := B2R y / r) in *. pose proof (ln_lt_sub q ltac:(lra)). pose proof (ln_ge_sub q ltac:(lra)) as G.
  apply Rabs_le. split; [|nra].
  assert (/ q <= / (1 - e)) as K by (apply Rinv_le_contravar; lra).
  assert (/ (1 - e) = 1 + e + e * e / (1 - e)) as E by (field; lra).
  assert (e * e / (1 - e) <= 2 * (e * e)) as S.
  { assert (/ (1 - e) <= 2). { replace 2 with (/ (1 / 2)) by field. apply Rinv_le_contravar; lra. } unfold Rdiv. nra. }
  nra.
Qed.

Definition in_range (F : fmt) (v : R) : Prop := match F with f32 => Rabs v <= 160 | _ => Rabs v <= 300 end.
Definition pow_err (F : fmt) (v : R) : R := Rabs v * bpow radix2 (sqrte_exp F) + bpow radix2 (2 - fprec F) * (1 + 2 * bpow radix2 (2 - fprec F)).

Lemma exp_ln2_le : forall v z, v <= IZR z * (69 / 100) -> (0 <= z)%Z -> exp v <= bpow radix2 z.
Proof.
  intros v z H Hz. rewrite <- (exp_ln (bpow radix2 z)) by apply bpow_gt_0.
  assert (v <= ln (bpow radix2 z)) as [K| ->]; [|left; apply exp_increasing; assumption|right; reflexivity].
  rewrite bpow_exp. rewrite ln_exp. assert (69 / 100 <= ln 2); [|apply IZR_le in Hz; simpl (IZR radix2); nra].
  apply exp_le_inv. rewrite exp_ln by lra.
  assert (inI (exp (IZR 69 / IZR 100)) (iexp (iq 69 100))) as [_ I].
  { apply iexp_in; [vm_compute; reflexivity|]. apply iq_in. lia. }
  eapply Rle_trans; [exact I|]. replace 2 with (sc (2 * 2 ^ PB)).
  - apply sc_le. vm_compute. discriminate.
  - unfold sc. rewrite mult_IZR. change (IZR (2 ^ PB)) with (bpow radix2 PB). rewrite Rmult_assoc, <- bpow_plus. simpl. ring.
Qed.

Lemma pow_range : forall F v s, F <> f128 -> in_range F v -> Rabs (ln s - / 2) <= bpow radix2 (sqrte_exp F) -> 1 < s ->
  bpow radix2 (3 - femax F) <= Rpower s v <= bpow radix2 (femax F - 1).
Proof.
  intros F v s HF Hv Hs S1. unfold Rpower.
  assert (Rabs (ln s) <= 51 / 100) as Hl.
  { replace (ln s) with ((ln s - / 2) + / 2) by ring. eapply Rle_trans; [apply Rabs_triang|]. rewrite (Rabs_pos_eq (/ 2)) by lra.
    assert (bpow radix2 (sqrte_exp F) <= bpow radix2 (-24)) by (apply bpow_le; destruct F; simpl; lia). simpl (bpow radix2 (-24)) in *. lra. }
  assert (Rabs (v * ln s) <= match F with f32 => 82 | _ => 153 end) as B.
  { rewrite Rabs_mult. pose proof (Rabs_pos v). pose proof (Rabs_pos (ln s)). destruct F; simpl in Hv |- *; nra. }
  apply Rabs_le_inv in B as [B1 B2]. split.
  - rewrite <- (Ropp_involutive (v * ln s)), exp_Ropp. replace (3 - femax F)%Z with (- (femax F - 3))%Z by ring. rewrite bpow_opp. apply Rinv_le_contravar; [apply exp_pos|].
    apply exp_ln2_le; destruct F; simpl in *; (lia || lra).
  - apply exp_ln2_le; destruct F; simpl in *; (lia || lra).
Qed.

Lemma pow_sq : forall lm F (l : flt F) v, c99 lm -> F <> f128 -> isf l v -> in_range F v ->
  is_finite (cpow lm (sq F) l) = true /\ 0 < B2R (cpow lm (sq F) l) /\ Rabs (ln (B2R (cpow lm (sq F) l)) - v / 2) <= pow_err F v /\
  (v = 0 -> B2R (cpow lm (sq F) l) = 1).
Proof.
  intros lm F l v C HF [Hl Vl] Hv. destruct (sqrte_ln F HF) as (s & [Fs Vs] & S1 & S2).
  pose proof (c_pow_pos lm C F (sq F) l Fs Hl ltac:(lra)) as K. rewrite Vs, Vl in K.
  assert (0 < Rpower s v) as P by apply exp_pos.
  destruct (close_ln 2 F _ _ ltac:(lia) K P (pow_range F v s HF Hv S2 ltac:(lra))) as (A & B & D & _).
  split; [assumption|]. split; [assumption|]. split.
  - unfold cpow. unfold Rpower in D. rewrite ln_exp in D. unfold pow_err.
    replace (ln (B2R (lib2 lm Fpow F (sq F) l)) - v / 2) with ((ln (B2R (lib2 lm Fpow F (sq F) l)) - v * ln s) + v * (ln s - / 2)) by field.
    eapply Rle_trans; [apply Rabs_triang|]. rewrite Rabs_mult. pose proof (Rabs_pos v). nra.
  - intros ->. assert (exists b, l = B754_zero b) as [b ->] by (apply isf_zero; split; assumption).
    unfold cpow. rewrite (c_pow_0 lm C). destruct (isf_fint (f := F) 1) as [_ E]; [destruct F; simpl; lia|]. exact E.
Qed.

(** ** Takums to floats *)
Definition cl_ok {F G : fmt} (cl : flt F -> flt G) : Prop :=
  (forall l a, isf l a -> Rabs a <= 512 -> isf (cl l) (RF G a)) /\ cl B754_nan = B754_nan /\ forall s, cl (B754_infinity s) = B754_infinity s.
Definition po_ok {G F : fmt} (po : flt G -> flt F) : Prop :=
  (forall x a, isf x a -> Rabs (RF F a) < bpow radix2 (femax F) -> isf (po x) (RF F a)) /\ po B754_nan = B754_nan /\ (forall s, po (B754_zero s) = B754_zero s) /\ forall x, po (fneg x) = fneg (po x).

Lemma cl_cast : forall F G, cl_ok (@fcast F G).
Proof.
  intros F G. split; [|split; reflexivity]. intros l a Hl Ha. apply isf_fcast; [assumption|]. apply (RF_lt_emax G a 9).
  - pose proof (fmt_pos G). lia.
  - simpl. lra.
Qed.
Lemma cl_id : forall F, @cl_ok F F (fun l => l).
Proof. intros F. split; [|split; reflexivity]. intros l a Hl _. rewrite RF_id by (eapply isf_FF; eassumption). assumption. Qed.
Lemma po_cast : forall G F, po_ok (@fcast G F).
Proof. intros G F. split; [|split; [reflexivity|split; [reflexivity|apply fcast_neg]]]. intros x a. apply isf_fcast. Qed.
Lemma po_id : forall F, @po_ok F F (fun x => x).
Proof. intros F. split; [|split; [reflexivity|split; reflexivity]]. intros x a Hx _. rewrite RF_id by (eapply isf_FF; eassumption). assumption. Qed.

Definition log_to_form (lm : libm) (n : Z) (F : fmt) (f : Z -> outcome (flt F)) : Prop :=
  exists m G (cl : flt (m_F m) -> flt G) (po : flt G -> flt F), mach_ok m /\ m_n m = n /\ G <> f128 /\ (F = f32 <-> G = f32) /\ fsub_fmt F G /\
    (F = f80 -> (fprec (m_F m) <= fprec G)%Z) /\ cl_ok cl /\ po_ok po /\
    forall t, f t = bind (m_dec m t) (fun l => Val (po (fmul (fint G (int_sign t)) (cpow lm (sq G) (cl l))))).

Lemma log_to_inv : forall lm n F f, log_to_float lm n F f -> log_to_form lm n F f.
Proof.
  assert (forall lm n F f m (cl : flt (m_F m) -> flt F), mach_ok m -> m_n m = n -> F <> f128 -> (F = f80 -> (fprec (m_F m) <= fprec F)%Z) -> cl_ok cl ->
    (forall t, f t = bind (m_dec m t) (fun l => Val (fmul (fint F (int_sign t)) (cpow lm (sq F) (cl l))))) -> log_to_form lm n F f) as K.
  { intros lm n F f m cl Hm En HF Hp Hc Hf. exists m, F, cl, (fun x => x). repeat (split; [first [assumption|apply po_id|tauto|split; lia]|]). exact Hf. }
  intros lm n F f [].
  - apply (K _ _ _ _ mach8 (fun l => l)); try reflexivity; try discriminate; [apply mach8_ok|apply cl_id].
  - apply (K _ _ _ _ mach16 (fun l => l)); try reflexivity; try discriminate; [apply mach16_ok|apply cl_id].
  - apply (K _ _ _ _ mach32 (fcast f32)); try reflexivity; try discriminate; [apply mach32_ok|apply cl_cast].
  - apply (K _ _ _ _ mach64 (fcast f32)); try reflexivity; try discriminate; [apply mach64_ok|apply cl_cast].
  - exists mach8, f80, (fcast f80), (fcast f64). split; [apply mach8_ok|]. split; [reflexivity|]. split; [discriminate|]. split; [split; discriminate|].
    split; [split; simpl; lia|]. split; [discriminate|]. split; [apply cl_cast|]. split; [apply po_cast|]. reflexivity.
  - apply (K _ _ _ _ mach16 (fcast f64)); try reflexivity; try discriminate; [apply mach16_ok|apply cl_cast].
  - apply (K _ _ _ _ mach32 (fun l => l)); try reflexivity; try discriminate; [apply mach32_ok|apply cl_id].
  - apply (K _ _ _ _ mach64 (fcast f64)); try reflexivity; try discriminate; [apply mach64_ok|apply cl_cast].
  - apply (K _ _ _ _ mach8 (fcast f80)); try reflexivity; try discriminate; [apply mach8_ok|apply cl_cast].
  - apply (K _ _ _ _ mach16 (fcast f80)); try reflexivity; try discriminate; [apply mach16_ok|apply cl_cast].
  - apply (K _ _ _ _ mach32 (fcast f80)); try reflexivity; try discriminate; [apply mach32_ok|apply cl_cast].
  - apply (K _ _ _ _ mach64 (fun l => l)); try reflexivity; try discriminate; [apply mach64_ok|apply cl_id].
Qed.

Lemma log_to_nar : forall lm n F f, c99 lm -> log_to_float lm n F f -> f (nar n) = Val B754_nan.
Proof.
  intros lm n F f C H. destruct (log_to_inv _ _ _ _ H) as (m & G & cl & po & Hm & <- & HG & _ & _ & _ & (_ & Cn & _) & (_ & Pn & _) & ->).
  rewrite (mo_decN m Hm). cbn [bind]. unfold fnan. rewrite Cn. unfold cpow. destruct (sqrte_ln G HG) as (s & [Fs Vs] & S1 & _).
  rewrite (c_pow_nan_r lm C) by (intros _; lra). destruct (nan_r G (fint G (int_sign (nar (m_n m))))) as (_ & _ & -> & _). rewrite Pn. reflexivity.
Qed.
Lemma log_to_0 : forall lm n F f, c99 lm -> log_to_float lm n F f -> f 0%Z = Val (B754_zero false).
Proof.
  intros lm n F f C H. destruct (log_to_inv _ _ _ _ H) as (m & G & cl & po & Hm & <- & HG & _ & _ & _ & (_ & _ & Ci) & (_ & _ & Pz & _) & ->).
  rewrite (mo_dec0 m Hm). cbn [bind]. unfold fninf. rewrite Ci. unfold cpow. destruct (sqrte_ln G HG) as (s & [Fs Vs] & S1 & _).
  rewrite (c_pow_ninf lm C) by (assumption || lra). rewrite <- (Pz false). reflexivity.
Qed.

Lemma int_sign_real : forall n t, is_real_takum n t -> IZR (int_sign t) = sg (t <? 0)%Z.
Proof.
  intros n t (_ & H & _). unfold int_sign, sg. destruct (Z.eqb_spec t 0); [contradiction|]. destruct (t <? 0)%Z; reflexivity.
Qed.

Lemma log_to_real : forall lm n F f t, c99 lm -> log_to_float lm n F f -> is_real_takum n t ->
  exists G (po : flt G -> flt F) y p, G <> f128 /\ (F = f32 <-> G = f32) /\ fsub_fmt F G /\ po_ok po /\ f t = Val (po y) /\
  (in_range G (RF G (l_ n t)) -> isf y (sg (t <? 0)%Z * p) /\ 0 < p /\ Rabs (ln p - RF G (l_ n t) / 2) <= pow_err G (RF G (l_ n t)) /\ (l_ n t = 0 -> p = 1)) /\
  (F = f80 -> G = f80 /\ RF G (l_ n t) = l_ n t).
Proof.
  intros lm n F f t C H Hr. destruct (log_to_inv _ _ _ _ H) as (m & G & cl & po & Hm & <- & HG & H32 & Hsub & H80 & (Cv & _ & _) & Hpo & Hf).
  pose proof (mo_range m Hm) as Hn. destruct (mo_dec m Hm t Hr) as (l & El & Hl).
  exists G, po, (fmul (fint G (int_sign t)) (cpow lm (sq G) (cl l))), (B2R (cpow lm (sq G) (cl l))).
  split; [assumption|]. split; [assumption|]. split; [assumption|]. split; [assumption|]. split; [rewrite Hf, El; reflexivity|].
  pose proof (l_abs (m_n m) t ltac:(lia) Hr) as Ha. pose proof (Cv l _ Hl ltac:(lra)) as Hc. split.
  - intros Rg. destruct (pow_sq lm G (cl l) _ C HG Hc Rg) as (A & B & D & E). split; [|split; [assumption|split; [assumption|]]].
    + assert (isf (fint G (int_sign t)) (sg (t <? 0)%Z)) as Hi.
      { rewrite <- (int_sign_real (m_n m)) by assumption. apply isf_fint. unfold int_sign. destruct (t =? 0)%Z, (t <? 0)%Z; destruct G; simpl; lia. }
      assert (isf (cpow lm (sq G) (cl l)) (B2R (cpow lm (sq G) (cl l)))) as Hq by (split; [assumption|reflexivity]).
      apply isf_fmul_exact; [assumption|assumption| |].
      * unfold sg. destruct (t <? 0)%Z; [replace (-1 * B2R (cpow lm (sq G) (cl l))) with (- B2R (cpow lm (sq G) (cl l))) by ring; apply FF_opp|rewrite Rmult_1_l]; eapply isf_FF; eassumption.
      * rewrite Rabs_mult, sg_abs, Rmult_1_l. eapply isf_lt; eassumption.
    + intros E0. apply E. rewrite E0. apply RF_0.
  - intros EF. destruct G; try contradiction.
    + destruct H32 as [_ H32]. specialize (H32 eq_refl). congruence.
    + destruct Hsub as [Hs _]. rewrite EF in Hs. simpl in Hs. lia.
    + split; [reflexivity|]. apply RF_id. specialize (H80 EF). apply FF_sub with (m_F m); [|eapply isf_FF; eassumption].
      clear - H80. revert H80. generalize (m_F m). intros []; split; simpl in *; lia.
Qed.

(** as used by the wrappers *)
Lemma log_to_ld_real : forall lm n f t, c99 lm -> log_to_float lm n f80 f -> is_real_takum n t ->
  exists y p, f t = Val y /\ isf y (sg (t <? 0)%Z * p) /\ 0 < p /\
    Rabs (ln p - l_ n t / 2) <= Rabs (l_ n t) * bpow radix2 (-65) + bpow radix2 (-62) * (1 + bpow radix2 (-61)) /\ (l_ n t = 0 -> p = 1).
Proof.
  intros lm n f t C H Hr. destruct (log_to_real lm n f80 f t C H Hr) as (G & po & y & p & HG & _ & _ & (Po & _) & Ef & K & K80).
  destruct (K80 eq_refl) as [-> E]. rewrite E in K.
  assert (in_range f80 (l_ n t)) as Rg.
  { simpl. assert (8 <= n <= 64)%Z as Hn by (destruct H; lia). pose proof (l_abs n t ltac:(lia) Hr). lra. }
  destruct (K Rg) as (A & B & D & Z). exists (po y), p. split; [assumption|]. split.
  - rewrite <- (RF_id f80 (sg (t <? 0)%Z * p)) by (eapply isf_FF; eassumption). apply Po; [assumption|].
    rewrite RF_id by (eapply isf_FF; eassumption). eapply isf_lt. exact A.
  - split; [assumption|]. split; [|assumption]. unfold pow_err in D. simpl sqrte_exp in D. change (2 - fprec f80)%Z with (-62)%Z in D.
    replace (bpow radix2 (-61)) with (2 * bpow radix2 (-62)) by (simpl; lra). exact D.
Qed.

(** ** 2 log |x| *)
Lemma FF_not_1 : forall F x, FF F x -> 0 < x -> x <> 1 -> bpow radix2 (- fprec F) <= Rabs (ln x).
Proof.
  intros F x HF Px N1. pose proof (fmt_pos F) as (P1 & P2 & P3).
  assert (FF F 1) as F1 by (apply (FF_bpow F 0); lia).
  assert (Valid_exp (fexpo F)) as VE by (unfold fexpo; apply fexp_correct; apply fprec_gt_0).
  destruct (Rlt_or_le 1 x) as [K|K].
  - assert (1 + bpow radix2 (1 - fprec F) <= x) as G.
    { pose proof (succ_le_lt radix2 (fexpo F) 1 x F1 HF K) as S. rewrite succ_eq_pos in S by lra.
      change 1 with (bpow radix2 0) in S at 2. rewrite ulp_bpow in S. replace (fexpo F (0 + 1)) with (1 - fprec F)%Z in S; [exact S|].
      rewrite fexpo_FLT. unfold FLT_exp. unfold femin in *. lia. }
    rewrite Rabs_pos_eq by (rewrite <- ln_1; left; apply ln_increasing; lra).
    eapply Rle_trans; [|apply ln_ge_sub; assumption]. 
    assert (bpow radix2 (1 - fprec F) = 2 * bpow radix2 (- fprec F)) as E by (replace (1 - fprec F)%Z with (1 + - fprec F)%Z by lia; rewrite bpow_plus; reflexivity).
    set (e := bpow radix2 (- fprec F)) in *. assert (0 < e <= 1 / 4) as He. { split; [apply bpow_gt_0|]. replace (1 / 4) with (bpow radix2 (-2)) by (simpl; lra). apply bpow_le. lia. }
    assert (/ x <= / (1 + 2 * e)) by (apply Rinv_le_contravar; lra).
    assert (/ (1 + 2 * e) <= 1 - e); [|lra]. apply Rmult_le_reg_r with (1 + 2 * e); [lra|]. rewrite Rinv_l by lra. nra.
  - assert (x <= 1 - bpow radix2 (- fprec F)) as G.
    { pose proof (pred_ge_gt radix2 (fexpo F) x 1 HF F1 ltac:(lra)) as S. change 1 with (bpow radix2 0) in S. rewrite pred_bpow in S.
      replace (fexpo F 0) with (- fprec F)%Z in S; [exact S|]. rewrite fexpo_FLT. unfold FLT_exp. unfold femin in *. lia. }
    pose proof (ln_lt_sub x Px). pose proof (bpow_gt_0 radix2 (- fprec F)). rewrite Rabs_left by lra. lra.
Qed.
Lemma ln_upper : forall F x, Rabs x < bpow radix2 (femax F) -> bpow radix2 (femin F) <= x -> Rabs (ln x) <= bpow radix2 15.
Proof.
  intros F x H1 H2. pose proof (fmt_pos F) as (P1 & P2 & P3). pose proof (bpow_gt_0 radix2 (femin F)). rewrite Rabs_pos_eq in H1 by lra.
  assert (forall z, (-16500 <= z <= 16500)%Z -> Rabs (ln (bpow radix2 z)) <= bpow radix2 15) as K.
  { intros z Hz. rewrite bpow_exp, ln_exp, Rabs_mult, <- abs_IZR. simpl (IZR radix2).
    assert (Rabs (ln 2) <= 1). { rewrite Rabs_pos_eq; [pose proof (ln_lt_sub 2 ltac:(lra)); lra|]. rewrite <- ln_1. left. apply ln_increasing; lra. }
    assert (IZR (Z.abs z) <= 16500) by (apply IZR_le; lia). simpl (bpow radix2 15). pose proof (Rabs_pos (ln 2)). assert (0 <= IZR (Z.abs z)) by (apply IZR_le; lia). nra. }
  assert (-16500 <= femin F)%Z as E by (destruct F; vm_compute; discriminate).
  pose proof (K (femin F) ltac:(lia)) as K1. pose proof (K (femax F) ltac:(lia)) as K2. apply Rabs_le_inv in K1, K2.
  assert (ln (bpow radix2 (femin F)) <= ln x) by (destruct H2 as [H2| <-]; [left; apply ln_increasing; assumption|lra]).
  assert (ln x < ln (bpow radix2 (femax F))) by (apply ln_increasing; lra). apply Rabs_le. lra.
Qed.
Lemma FF_min : forall F x, FF F x -> 0 < x -> bpow radix2 (femin F) <= x.
Proof.
  intros F x H Px. destruct (FF_inv F x H) as (m & e & _ & He & ->).
  assert (1 <= IZR m). { apply IZR_le. pose proof (bpow_gt_0 radix2 e). assert (0 < IZR m) as K by nra. apply lt_IZR in K. lia. }
  eapply Rle_trans; [apply bpow_le; exact He|]. pose proof (bpow_gt_0 radix2 e). nra.
Qed.

Lemma log_val : forall lm F (x : flt F) a, c99 lm -> isf x a -> 0 < a ->
  exists L, isf (fmul (fint F 2) (clog lm x)) L /\ Rabs (L - 2 * ln a) <= bpow radix2 (2 - fprec F) * Rabs (2 * ln a) /\ Rabs L <= bpow radix2 17 /\ (L = 0 \/ bpow radix2 (-114) <= Rabs L).
Proof.
  intros lm F x a C [Fx Vx] Pa. pose proof (fmt_pos F) as (P1 & P2 & P3).
  assert (FF F a) as HF by (eapply isf_FF; split; eassumption). assert (Rabs a < bpow radix2 (femax F)) as Hx by (eapply isf_lt; split; eassumption).
  pose proof (c_in lm C Flog F x Fx ltac:(simpl; rewrite Vx; assumption)) as K. cbn [real1 acc1] in K. rewrite Vx in K.
  change (lib1 lm Flog F x) with (clog lm x) in K. destruct K as (_ & K0 & _ & Kf & Ka & _).
  pose proof (ln_upper F a Hx (FF_min F a HF Pa)) as Lu.
  assert (Rabs (ln a) <= bpow radix2 (femax F - 1)) as Lu'. { eapply Rle_trans; [exact Lu|]. apply bpow_le. lia. }
  specialize (Kf Lu').
  assert (Rabs (B2R (clog lm x) - ln a) <= bpow radix2 (2 - fprec F) * Rabs (ln a)) as E.
  { destruct (Req_dec a 1) as [->|N1].
    - rewrite ln_1 in *. destruct (K0 eq_refl) as [_ ->]. rewrite Rminus_0_r, Rabs_R0. lra.
    - apply Ka. split; [|assumption]. eapply Rle_trans; [|apply (FF_not_1 F); assumption]. apply bpow_le. destruct F; simpl; lia. }
  assert (bpow radix2 (2 - fprec F) <= 1 / 2) as Eh. { replace (1 / 2) with (bpow radix2 (-1)) by (simpl; lra). apply bpow_le. lia. }
  assert (Rabs (B2R (clog lm x)) <= bpow radix2 16) as Bd.
  { replace (B2R (clog lm x)) with (ln a + (B2R (clog lm x) - ln a)) by ring. eapply Rle_trans; [apply Rabs_triang|]. replace (bpow radix2 16) with (2 * bpow radix2 15) by (simpl; lra).
    pose proof (Rabs_pos (ln a)). nra. }
  assert (bpow radix2 17 = 2 * bpow radix2 16) as E17 by (simpl; lra).
  exists (2 * B2R (clog lm x)). split; [|split].
  - apply isf_fmul_exact.
    + apply isf_fint. assert (2 ^ 1 <= 2 ^ fprec F)%Z by (apply Z.pow_le_mono_r; lia). lia.
    + split; [assumption|reflexivity].
    + apply FF_double. eapply isf_FF. split; [eassumption|reflexivity].
    + rewrite Rabs_mult, (Rabs_pos_eq 2) by lra. eapply Rle_lt_trans; [|apply (bpow_lt radix2 17); lia]. lra.
  - replace (2 * B2R (clog lm x) - 2 * ln a) with (2 * (B2R (clog lm x) - ln a)) by ring. rewrite !Rabs_mult, (Rabs_pos_eq 2) by lra. lra.
  - split; [rewrite Rabs_mult, (Rabs_pos_eq 2) by lra; lra|].
    destruct (Req_dec a 1) as [->|N1].
    + left. rewrite ln_1 in *. destruct (K0 eq_refl) as [_ ->]. ring.
    + right. pose proof (FF_not_1 F a HF Pa N1) as G. rewrite Rabs_mult, (Rabs_pos_eq 2) by lra.
      assert (bpow radix2 (-113) <= bpow radix2 (- fprec F)) by (apply bpow_le; lia).
      assert (bpow radix2 (-113) = 2 * bpow radix2 (-114)) by (simpl; lra).
      assert (Rabs (ln a) <= Rabs (B2R (clog lm x)) + Rabs (B2R (clog lm x) - ln a)).
      { replace (ln a) with (B2R (clog lm x) + - (B2R (clog lm x) - ln a)) at 1 by ring. eapply Rle_trans; [apply Rabs_triang|]. rewrite Rabs_Ropp. lra. }
      assert (bpow radix2 (2 - fprec F) * Rabs (ln a) <= 1 / 2 * Rabs (ln a)) by (apply Rmult_le_compat_r; [apply Rabs_pos|assumption]). pose proof (bpow_gt_0 radix2 (-114)). lra.
Qed.

(** ** Floats to takums *)
Definition psi_close (m : mach) : Prop := forall x, FF (m_G m) x -> Rabs (m_psi m x - x) <= bpow radix2 (- m_n m).
Lemma psi_close8 : psi_close mach8.
Proof. intros x _. simpl. replace (x - x) with 0 by ring. rewrite Rabs_R0. lra. Qed.
Lemma psi_close16 : psi_close mach16.
Proof. intros x H. left. eapply Rlt_le_trans; [apply (phi_err f64); [simpl; lia|exact H]|]. apply bpow_le. simpl. lia. Qed.
Lemma psi_close32 : psi_close mach32.
Proof. intros x H. left. eapply Rlt_le_trans; [apply (phi_err f80); [simpl; lia|exact H]|]. apply bpow_le. simpl. lia. Qed.
Lemma psi_close64 : psi_close mach64.
Proof. intros x H. left. eapply Rlt_le_trans; [apply (phi_err f80); [simpl; lia|exact H]|]. apply bpow_le. simpl. lia. Qed.

(** the conversion of l before encoding *)
Definition cg_ok (eps : R) {H G : fmt} (cg : flt H -> flt G) : Prop :=
  forall x a, isf x a -> Rabs a <= bpow radix2 17 -> a = 0 \/ bpow radix2 (-114) <= Rabs a -> exists a', isf (cg x) a' /\ Rabs (a' - a) <= eps * Rabs a.
Lemma cg_id : forall F, @cg_ok 0 F F (fun x => x).
Proof. intros F x a Hx _ _. exists a. split; [assumption|]. replace (a - a) with 0 by ring. rewrite Rabs_R0. lra. Qed.
Lemma cg_up : forall F G, fsub_fmt F G -> cg_ok 0 (@fcast F G).
Proof. intros F G Hs x a Hx _ _. exists a. split; [apply isf_fcast_up; assumption|]. replace (a - a) with 0 by ring. rewrite Rabs_R0. lra. Qed.

Definition log_enc (lm : libm) (m : mach) (H : fmt) {F} (ch : flt F -> flt H) (cg : flt H -> flt (m_G m)) (y : flt F) : outcome Z :=
  m_enc m (flt_ y (fzero F)) (cg (fmul (fint H 2) (clog lm (ffabs (ch y))))).

Lemma log_enc_near : forall lm m H F (ch : flt F -> flt H) cg eps (y : flt F) a, c99 lm -> mach_ok m -> psi_close m ->
  (forall x b, isf x b -> isf (ch x) b) -> cg_ok eps cg -> 0 <= eps ->
  bpow radix2 (2 - fprec H) + eps * (1 + bpow radix2 (2 - fprec H)) <= bpow radix2 (2 - m_n m) ->
  isf y a -> a <> 0 -> exists L t, log_enc lm m H ch cg y = Val t /\ nearest (m_n m) (Rlt_bool a 0) L t /\
    Rabs (L - log_coord a) <= (bpow radix2 (2 - fprec H) + eps * (1 + bpow radix2 (2 - fprec H))) * Rabs (log_coord a) + bpow radix2 (- m_n m).
Proof.
  intros lm m H F ch cg eps y a C Hm Hp Hch Hcg He Hb Hy Na. unfold log_enc.
  rewrite (flt_isf y (fzero F) a 0 Hy (FloatFacts.isf_zero F)). set (s := Rlt_bool a 0).
  destruct (log_val lm H (ffabs (ch y)) (Rabs a) C) as (L0 & HL0 & E0 & B0 & N0).
  { apply isf_ffabs. apply Hch. assumption. }
  { apply Rabs_pos_lt. assumption. }
  destruct (Hcg _ _ HL0 B0 N0) as (L1 & HL1 & E1). rewrite (mo_enc m Hm s _ L1 HL1).
  pose proof (mo_range m Hm) as Hn.
  exists (sg s * m_psi m (sg s * L1)). eexists. split; [reflexivity|]. split.
  - replace (m_psi m (sg s * L1)) with (sg s * (sg s * m_psi m (sg s * L1))) at 2 by (rewrite <- Rmult_assoc, sg_sq; ring).
    apply enc_nearest_sg. lia.
  - change (2 * ln (Rabs a)) with (log_coord a) in E0. set (L := log_coord a) in *. set (d := bpow radix2 (2 - fprec H)) in *.
    assert (FF (m_G m) (sg s * L1)) as HF1.
    { apply isf_FF in HL1. unfold sg. destruct s; [replace (-1 * L1) with (- L1) by ring; apply FF_opp|rewrite Rmult_1_l]; assumption. }
    pose proof (Hp _ HF1) as E2. 
    assert (Rabs (sg s * m_psi m (sg s * L1) - L1) <= bpow radix2 (- m_n m)) as E3.
    { replace (sg s * m_psi m (sg s * L1) - L1) with (sg s * (m_psi m (sg s * L1) - sg s * L1)) by (rewrite Rmult_minus_distr_l, <- (Rmult_assoc (sg s) (sg s)), sg_sq; ring).
      rewrite Rabs_mult, sg_abs, Rmult_1_l. assumption. }
    assert (Rabs L0 <= (1 + d) * Rabs L) as B1.
    { replace L0 with (L + (L0 - L)) by ring. eapply Rle_trans; [apply Rabs_triang|]. lra. }
    replace (sg s * m_psi m (sg s * L1) - L) with ((sg s * m_psi m (sg s * L1) - L1) + ((L1 - L0) + (L0 - L))) by ring.
    eapply Rle_trans; [apply Rabs_triang|]. pose proof (Rabs_triang (L1 - L0) (L0 - L)).
    assert (eps * Rabs L0 <= eps * ((1 + d) * Rabs L)) by (apply Rmult_le_compat_l; assumption). lra.
Qed.

Lemma near_bound : forall n d L L', (6 <= n <= 64)%Z -> d <= bpow radix2 (2 - n) -> Rabs (L' - L) <= d * Rabs L + bpow radix2 (- n) ->
  Rabs (L' - L) < bpow radix2 (3 - n) * (Rabs L + 1).
Proof.
  intros n d L L' Hn Hd H. assert (bpow radix2 (2 - n) = 4 * bpow radix2 (- n)) as E2 by (replace (2 - n)%Z with (2 + - n)%Z by lia; rewrite bpow_plus; reflexivity).
  assert (bpow radix2 (3 - n) = 8 * bpow radix2 (- n)) as E3 by (replace (3 - n)%Z with (3 + - n)%Z by lia; rewrite bpow_plus; reflexivity).
  pose proof (bpow_gt_0 radix2 (- n)). pose proof (Rabs_pos L). rewrite E3. rewrite E2 in Hd.
  assert (d * Rabs L <= 4 * bpow radix2 (- n) * Rabs L) by (apply Rmult_le_compat_r; assumption).
  pose proof (Rmult_le_pos _ _ (Rlt_le _ _ H0) H1). lra.
Qed.

Definition log_from_form (lm : libm) (n : Z) (F : fmt) (f : flt F -> outcome Z) : Prop :=
  exists m H (ch : flt F -> flt H) cg eps (nw : Z -> outcome Z), mach_ok m /\ psi_close m /\ (forall x b, isf x b -> isf (ch x) b) /\ cg_ok eps cg /\ 0 <= eps /\
    bpow radix2 (2 - fprec H) + eps * (1 + bpow radix2 (2 - fprec H)) <= bpow radix2 (2 - m_n m) /\
    ((m_n m = n /\ forall t, nw t = Val t) \/ (m_n m = 64%Z /\ (n < 64)%Z /\ narrowing Logarithmic 64 n nw)) /\
    forall y, f y = if feq y (fzero F) then Val 0%Z else if negb (fisfinite y) then Val (NaR n) else bind (log_enc lm m H ch cg y) nw.

Lemma bind_val : forall (x : outcome Z), bind x (fun t => Val t) = x.
Proof. intros []; reflexivity. Qed.

Lemma log_from_inv : forall lm n F f, log_from_float lm n F f -> log_from_form lm n F f.
Proof.
  assert (forall k, bpow radix2 (2 - k) + 0 * (1 + bpow radix2 (2 - k)) = bpow radix2 (2 - k)) as E0 by (intros; ring).
  assert (forall F n, (n <= fprec F)%Z -> bpow radix2 (2 - fprec F) + 0 * (1 + bpow radix2 (2 - fprec F)) <= bpow radix2 (2 - n)) as E1.
  { intros F n H. rewrite E0. apply bpow_le. lia. }
  assert (forall F G, fsub_fmt F G -> forall (x : flt F) b, isf x b -> isf (fcast G x) b) as UP by (intros F G HS x b; apply isf_fcast_up; assumption).
  intros lm n F f [].
  - exists mach8, f64, (fcast f64), (fcast f32), (bpow radix2 (-20)), (fun t => Val t).
    split; [apply mach8_ok|]. split; [apply psi_close8|]. split; [apply UP; split; simpl; lia|]. split.
    + intros x a Hx Ha Hb. exists (RF f32 a). split.
      * apply isf_fcast; [assumption|]. apply (RF_lt_emax f32 a 17); [unfold femin; simpl; lia|assumption].
      * destruct Hb as [->|Hb]; [rewrite RF_0, Rminus_0_r, Rabs_R0; lra|].
        eapply Rle_trans; [apply (relative_error_N_FLT radix2 (femin f32) (fprec f32) (fprec_gt_0 f32) (fun x => negb (Z.even x)))|].
        -- eapply Rle_trans; [|exact Hb]. apply bpow_le. unfold femin. simpl. lia.
        -- apply Rmult_le_compat_r; [apply Rabs_pos|]. simpl. lra.
    + split; [apply bpow_ge_0|]. split; [simpl; lra|]. split; [left; split; reflexivity|]. intros y. rewrite bind_val. reflexivity.
  - exists mach16, f64, (fcast f64), (fun x => x), 0, (fun t => Val t).
    split; [apply mach16_ok|]. split; [apply psi_close16|]. split; [apply UP; split; simpl; lia|]. split; [apply cg_id|]. split; [lra|].
    split; [apply E1; simpl; lia|]. split; [left; split; reflexivity|]. intros y. rewrite bind_val. reflexivity.
  - exists mach32, f64, (fcast f64), (fcast f80), 0, (fun t => Val t).
    split; [apply mach32_ok|]. split; [apply psi_close32|]. split; [apply UP; split; simpl; lia|]. split; [apply cg_up; split; simpl; lia|]. split; [lra|].
    split; [apply E1; simpl; lia|]. split; [left; split; reflexivity|]. intros y. rewrite bind_val. reflexivity.
  - exists mach64, f80, (fcast f80), (fun x => x), 0, (fun t => Val t).
    split; [apply mach64_ok|]. split; [apply psi_close64|]. split; [apply UP; split; simpl; lia|]. split; [apply cg_id|]. split; [lra|].
    split; [apply E1; simpl; lia|]. split; [left; split; reflexivity|]. intros y. rewrite bind_val. reflexivity.
  - exists mach64, f80, (fcast f80), (fun x => x), 0, takum8_from_takum64.
    split; [apply mach64_ok|]. split; [apply psi_close64|]. split; [apply UP; split; simpl; lia|]. split; [apply cg_id|]. split; [lra|].
    split; [apply E1; simpl; lia|]. split; [right; split; [reflexivity|split; [lia|constructor]]|]. reflexivity.
  - exists mach64, f80, (fcast f80), (fun x => x), 0, takum16_from_takum64.
    split; [apply mach64_ok|]. split; [apply psi_close64|]. split; [apply UP; split; simpl; lia|]. split; [apply cg_id|]. split; [lra|].
    split; [apply E1; simpl; lia|]. split; [right; split; [reflexivity|split; [lia|constructor]]|]. reflexivity.
  - exists mach32, f80, (fcast f80), (fun x => x), 0, (fun t => Val t).
    split; [apply mach32_ok|]. split; [apply psi_close32|]. split; [apply UP; split; simpl; lia|]. split; [apply cg_id|]. split; [lra|].
    split; [apply E1; simpl; lia|]. split; [left; split; reflexivity|]. intros y. rewrite bind_val. reflexivity.
  - exists mach64, f80, (fcast f80), (fun x => x), 0, (fun t => Val t).
    split; [apply mach64_ok|]. split; [apply psi_close64|]. split; [apply UP; split; simpl; lia|]. split; [apply cg_id|]. split; [lra|].
    split; [apply E1; simpl; lia|]. split; [left; split; reflexivity|]. intros y. rewrite bind_val. reflexivity.
  - exists mach64, f80, (fun x => x), (fun x => x), 0, takum8_from_takum64.
    split; [apply mach64_ok|]. split; [apply psi_close64|]. split; [auto|]. split; [apply cg_id|]. split; [lra|].
    split; [apply E1; simpl; lia|]. split; [right; split; [reflexivity|split; [lia|constructor]]|]. reflexivity.
  - exists mach64, f80, (fun x => x), (fun x => x), 0, takum16_from_takum64.
    split; [apply mach64_ok|]. split; [apply psi_close64|]. split; [auto|]. split; [apply cg_id|]. split; [lra|].
    split; [apply E1; simpl; lia|]. split; [right; split; [reflexivity|split; [lia|constructor]]|]. reflexivity.
  - exists mach64, f80, (fun x => x), (fun x => x), 0, takum32_from_takum64.
    split; [apply mach64_ok|]. split; [apply psi_close64|]. split; [auto|]. split; [apply cg_id|]. split; [lra|].
    split; [apply E1; simpl; lia|]. split; [right; split; [reflexivity|split; [lia|constructor]]|]. reflexivity.
  - exists mach64, f80, (fun x => x), (fun x => x), 0, (fun t => Val t).
    split; [apply mach64_ok|]. split; [apply psi_close64|]. split; [auto|]. split; [apply cg_id|]. split; [lra|].
    split; [apply E1; simpl; lia|]. split; [left; split; reflexivity|]. intros y. rewrite bind_val. reflexivity.
Qed.

Lemma log_from_real : forall lm n F f (y : flt F) a, c99 lm -> log_from_float lm n F f -> isf y a -> a <> 0 ->
  exists t, f y = Val t /\ faithful n (Rlt_bool a 0) (log_coord a) t.
Proof.
  intros lm n F f y a C H Hy Na.
  destruct (log_from_inv _ _ _ _ H) as (m & K & ch & cg & eps & nw & Hm & Hp & Hch & Hcg & He & Hb & Hnw & Hf).
  rewrite Hf. rewrite (feq_isf y (fzero F) a 0 Hy (FloatFacts.isf_zero F)), Req_bool_false by assumption.
  rewrite (fisfinite_isf y a Hy). cbn [negb].
  destruct (log_enc_near lm m K F ch cg eps y a C Hm Hp Hch Hcg He Hb Hy Na) as (L & t & -> & Nt & E). cbn [bind].
  pose proof (mo_range m Hm) as Hn. pose proof (near_faithful (m_n m) ltac:(lia) _ _ _ _ (near_bound (m_n m) _ _ _ ltac:(lia) Hb E) Nt) as Ft.
  destruct Hnw as [[<- ->]|(E64 & Hlt & HN)].
  - exists t. split; [reflexivity|assumption].
  - rewrite E64 in Ft. apply narrowing_inv in HN as (HA & HB & _ & ->). pose proof (std_range n HB) as Hrn.
    destruct (reduce_real 64 n t HA HB Hlt (proj1 Ft)) as (t' & -> & Nn & _). exists t'. split; [reflexivity|].
    apply (faithful_narrow n _ _ t); [lia|assumption|]. replace (Rlt_bool a 0) with (t <? 0)%Z; [assumption|].
    destruct Ft as (R1 & R2 & _). apply has_sign_ltb; [assumption|]. apply R1.
Qed.
Lemma log_from_0 : forall lm n F f s, log_from_float lm n F f -> f (B754_zero s) = Val 0%Z.
Proof. intros lm n F f s H. destruct (log_from_inv _ _ _ _ H) as (m & K & ch & cg & eps & nw & _ & _ & _ & _ & _ & _ & _ & ->). destruct F, s; reflexivity. Qed.
Lemma log_from_nan : forall lm n F f (y : flt F), log_from_float lm n F f -> is_finite y = false -> f y = Val (nar n).
Proof.
  intros lm n F f y H Hy. destruct (log_from_inv _ _ _ _ H) as (m & K & ch & cg & eps & nw & _ & _ & _ & _ & _ & _ & _ & ->).
  destruct y as [s|s| |s mm e He]; try discriminate Hy; destruct F; try destruct s; reflexivity.
Qed.

(** ** Accuracy of the way to floats *)
Definition xe (F : fmt) : Z := match F with f32 => 118 | _ => 219 end.
Lemma RF_rel : forall F x, bpow radix2 (- xe F) <= Rabs x -> Rabs (RF F x - x) <= bpow radix2 (- fprec F) * Rabs x.
Proof.
  intros F x H. pose proof (fmt_pos F) as P.
  eapply Rle_trans; [apply (relative_error_N_FLT radix2 (femin F) (fprec F) (fprec_gt_0 F) (fun x => negb (Z.even x)))|].
  - eapply Rle_trans; [|exact H]. apply bpow_le. destruct F; vm_compute; discriminate.
  - apply Rmult_le_compat_r; [apply Rabs_pos|]. replace (- fprec F + 1)%Z with (1 + - fprec F)%Z by lia. rewrite bpow_plus. change (bpow radix2 1) with 2. lra.
Qed.
Lemma RF_l_err : forall F n t, (6 <= n <= 64)%Z -> is_real_takum n t -> Rabs (RF F (l_ n t) - l_ n t) <= bpow radix2 (- fprec F) * Rabs (l_ n t).
Proof.
  intros F n t Hn Hr. destruct (Req_dec (l_ n t) 0) as [->|N]; [rewrite RF_0, Rminus_0_r, Rabs_R0; lra|]. apply RF_rel.
  destruct (l_dyadic n t Hn Hr) as (k & E). rewrite E in *. assert (k <> 0%Z) by (intros ->; lra).
  rewrite Rabs_mult, <- abs_IZR, (Rabs_pos_eq (bpow _ _)) by apply bpow_ge_0.
  assert (1 <= IZR (Z.abs k)) by (apply IZR_le; lia). assert (bpow radix2 (- xe F) <= bpow radix2 (- (n - 5))) by (apply bpow_le; destruct F; simpl; lia). pose proof (bpow_gt_0 radix2 (- (n - 5))). nra.
Qed.
Lemma ln_RF : forall F p, bpow radix2 (- xe F) <= p -> 0 < RF F p /\ Rabs (ln (RF F p) - ln p) <= 2 * bpow radix2 (- fprec F).
Proof.
  intros F p H. pose proof (bpow_gt_0 radix2 (- xe F)) as P0. pose proof (RF_rel F p) as E. rewrite (Rabs_pos_eq p) in E by lra. specialize (E H). pose proof (fmt_pos F) as P.
  set (e := bpow radix2 (- fprec F)) in *.
  assert (0 < e <= 1 / 4) as He. { split; [apply bpow_gt_0|]. replace (1 / 4) with (bpow radix2 (-2)) by (simpl; lra). apply bpow_le. lia. }
  apply Rabs_le_inv in E. assert (0 < RF F p) as Y0 by nra. split; [assumption|].
  replace (ln (RF F p) - ln p) with (ln (RF F p / p)).
  2:{ unfold Rdiv. rewrite ln_mult, ln_Rinv by (lra || apply Rinv_0_lt_compat; lra). ring. }
  assert (1 - e <= RF F p / p <= 1 + e) as Q.
  { split; apply Rmult_le_reg_r with p; try lra; unfold Rdiv; rewrite ?Rmult_assoc, Rinv_l, ?Rmult_1_r by lra; nra. }
  set (q := RF F p / p) in *. pose proof (ln_lt_sub q ltac:(lra)). pose proof (ln_ge_sub q ltac:(lra)) as G.
  apply Rabs_le. split; [|nra].
  assert (/ q <= / (1 - e)) as K by (apply Rinv_le_contravar; lra).
  assert (/ (1 - e) = 1 + e / (1 - e)) as E1 by (field; lra).
  assert (e / (1 - e) <= 2 * e) as S.
  { assert (/ (1 - e) <= 2). { replace 2 with (/ (1 / 2)) by field. apply Rinv_le_contravar; lra. } unfold Rdiv. nra. }
  lra.
Qed.

Definition float_range (F : fmt) (L : R) : Prop := F = f32 -> Rabs L <= 159.

Lemma log_to_acc : forall lm n F f t, c99 lm -> log_to_float lm n F f -> is_real_takum n t -> float_range F (l_ n t) ->
  exists y p, f t = Val y /\ isf y (sg (t <? 0)%Z * p) /\ 0 < p /\ Rabs (2 * ln p - l_ n t) <= bpow radix2 (4 - fprec F) * (Rabs (l_ n t) + 1).
Proof.
  intros lm n F f t C H Hr Hf. destruct (log_to_real lm n F f t C H Hr) as (G & po & y & p & HG & H32 & Hsub & (Po & _) & Ef & K & _).
  assert (8 <= n <= 64)%Z as Hn by (destruct H; lia). pose proof (l_abs n t ltac:(lia) Hr) as Hl.
  pose proof (RF_l_err G n t ltac:(lia) Hr) as EG. pose proof (fmt_pos F) as PF. pose proof (fmt_pos G) as PG. destruct Hsub as [Hs1 Hs2].
  set (q := bpow radix2 (- fprec F)) in *.
  assert (0 < q <= / 16777216) as Hq. { split; [apply bpow_gt_0|]. replace (/ 16777216) with (bpow radix2 (-24)) by (simpl; lra). apply bpow_le. lia. }
  assert (bpow radix2 (- fprec G) <= q) as GF by (apply bpow_le; lia).
  assert (Rabs (RF G (l_ n t) - l_ n t) <= q * Rabs (l_ n t)) as EG'.
  { eapply Rle_trans; [exact EG|]. apply Rmult_le_compat_r; [apply Rabs_pos|assumption]. }
  set (v := RF G (l_ n t)) in *. set (l := l_ n t) in *.
  assert (Rabs v <= Rabs l + q * Rabs l) as Bv. { replace v with (l + (v - l)) by ring. eapply Rle_trans; [apply Rabs_triang|]. lra. }
  pose proof (Rabs_pos l) as L0. pose proof (Rabs_pos v) as V0.
  assert (in_range G v /\ Rabs v <= match F with f32 => 160 | _ => 300 end) as [Rg Rv].
  { unfold in_range. assert (F = f32 \/ F <> f32) as [->|N] by (destruct F; (left; reflexivity) || (right; discriminate)).
    - specialize (Hf eq_refl). rewrite (proj1 H32 eq_refl). split; nra.
    - destruct G; [destruct N; tauto| | |]; (split; [nra|]); destruct F; try (destruct N; reflexivity); nra. }
  destruct (K Rg) as (A & P & D & _).
  assert (pow_err G v <= q * Rabs v + 4 * q * (1 + 8 * q)) as PE.
  { unfold pow_err. assert (bpow radix2 (sqrte_exp G) <= q) as Q1.
    { eapply Rle_trans; [|exact GF]. apply bpow_le. destruct G; simpl; try lia. contradiction. }
    assert (bpow radix2 (2 - fprec G) <= 4 * q) as Q2.
    { replace (2 - fprec G)%Z with (2 + - fprec G)%Z by lia. rewrite bpow_plus. change (bpow radix2 2) with 4. lra. }
    pose proof (bpow_gt_0 radix2 (2 - fprec G)). pose proof (bpow_gt_0 radix2 (sqrte_exp G)). nra. }
  assert (bpow radix2 (- xe F) <= p <= bpow radix2 (xe F)) as [Lp Up].
  { assert (Rabs (ln p) <= match F with f32 => 81 | _ => 151 end) as Bl.
    { replace (ln p) with ((ln p - v / 2) + v / 2) by ring. eapply Rle_trans; [apply Rabs_triang|]. unfold Rdiv at 2. rewrite Rabs_mult, (Rabs_pos_eq (/ 2)) by lra.
      destruct F; nra. }
    apply Rabs_le_inv in Bl. split.
    - rewrite bpow_opp, <- (Rinv_inv p). apply Rinv_le_contravar; [apply Rinv_0_lt_compat; assumption|].
      rewrite <- (exp_ln p), <- exp_Ropp by assumption. apply exp_ln2_le; destruct F; simpl; (lia || lra).
    - rewrite <- (exp_ln p) by assumption. apply exp_ln2_le; destruct F; simpl; (lia || lra). }
  destruct (ln_RF F p Lp) as [P' LR]. fold q in LR.
  exists (po y), (RF F p). split; [assumption|]. split; [|split; [assumption|]].
  - replace (sg (t <? 0)%Z * RF F p) with (RF F (sg (t <? 0)%Z * p)).
    + apply Po; [assumption|]. apply (RF_lt_emax F _ (xe F)); [destruct F; unfold femin; simpl; lia|]. rewrite Rabs_mult, sg_abs, Rmult_1_l, Rabs_pos_eq by lra. assumption.
    + unfold sg. destruct (t <? 0)%Z; [|rewrite !Rmult_1_l; reflexivity]. replace (-1 * p) with (- p) by ring. rewrite RF_opp. ring.
  - replace (4 - fprec F)%Z with (4 + - fprec F)%Z by lia. rewrite bpow_plus. fold q. change (bpow radix2 4) with 16.
    replace (2 * ln (RF F p) - l) with (2 * (ln (RF F p) - ln p) + (2 * (ln p - v / 2) + (v - l))) by field.
    eapply Rle_trans; [apply Rabs_triang|]. eapply Rle_trans; [apply Rplus_le_compat_l, Rabs_triang|]. rewrite !(Rabs_mult 2), (Rabs_pos_eq 2) by lra.
    assert (q * Rabs v <= q * (Rabs l + q * Rabs l)) by (apply Rmult_le_compat_l; lra).
    assert (q * (q * Rabs l) <= q * Rabs l) by (apply Rmult_le_compat_l; nra).
    assert (4 * q * (1 + 8 * q) <= 5 * q) by nra. pose proof (Rmult_le_pos q (Rabs l) ltac:(lra) ltac:(lra)). lra.
Qed.

(** ** A takum survives the way through a float of at least its width in
    precision *)
Lemma widen_real : forall n t, (6 <= n <= 64)%Z -> is_real_takum n t ->
  is_real_takum 64 (t * 2 ^ (64 - n)) /\ (t * 2 ^ (64 - n) <? 0)%Z = (t <? 0)%Z /\ l_ 64 (t * 2 ^ (64 - n)) = l_ n t.
Proof.
  intros n t Hn Ht. pose proof (pow2_pos (64 - n) ltac:(lia)). split; [|split].
  - destruct Ht as (I1 & I2 & I3). unfold is_real_takum, is_intn, nar in *.
    assert (2 ^ (64 - 1) = 2 ^ (n - 1) * 2 ^ (64 - n))%Z as E by (rewrite <- Z.pow_add_r by lia; f_equal; lia). rewrite E. nia.
  - destruct (Z.ltb_spec t 0); [apply Z.ltb_lt|apply Z.ltb_ge]; nia.
  - apply l_mul; try lia. apply Ht.
Qed.

Lemma log_round_trip : forall lm n F h g t, c99 lm -> log_to_float lm n F h -> log_from_float lm n F g -> (n <= fprec F)%Z -> is_intn n t -> float_range F (l_ n t) ->
  exists y, h t = Val y /\ g y = Val t.
Proof.
  intros lm n F h g t C Hh Hg Hp It Rg. destruct (takum_cases n t It) as [-> | [-> | Hr]].
  - exists (B754_zero false). split; [apply (log_to_0 lm n); assumption|apply (log_from_0 lm n F); assumption].
  - exists B754_nan. split; [apply (log_to_nar lm n F); assumption|apply (log_from_nan lm n F); [assumption|reflexivity]].
  - assert (exists y p, h t = Val y /\ isf y (sg (t <? 0)%Z * p) /\ 0 < p /\ Rabs (2 * ln p - l_ n t) <= bpow radix2 (4 - fprec F) * (Rabs (l_ n t) + 1) /\
      (n = 64%Z -> Rabs (2 * ln p - l_ n t) <= Rabs (l_ n t) * bpow radix2 (-64) + bpow radix2 (-61) * (1 + bpow radix2 (-61)))) as (y & p & Eh & Hy & P & E & E64).
    { assert (n = 64 \/ n <= 32)%Z as [->|S] by (destruct Hh; lia).
      - assert (F = f80) as -> by (inversion Hh; subst; simpl in Hp; try lia; reflexivity).
        destruct (log_to_ld_real lm 64 h t C Hh Hr) as (y & p & Eh & Hy & P & E & _). exists y, p. split; [assumption|]. split; [assumption|]. split; [assumption|].
        assert (Rabs (2 * ln p - l_ 64 t) <= Rabs (l_ 64 t) * bpow radix2 (-64) + bpow radix2 (-61) * (1 + bpow radix2 (-61))) as G.
        { replace (2 * ln p - l_ 64 t) with (2 * (ln p - l_ 64 t / 2)) by field. rewrite Rabs_mult, (Rabs_pos_eq 2) by lra.
          replace (bpow radix2 (-64)) with (2 * bpow radix2 (-65)) by (simpl; lra). replace (bpow radix2 (-61) * (1 + bpow radix2 (-61))) with (2 * (bpow radix2 (-62) * (1 + bpow radix2 (-61)))) by (simpl; lra). lra. }
        split; [|intros _; assumption]. eapply Rle_trans; [exact G|]. pose proof (Rabs_pos (l_ 64 t)). simpl. lra.
      - destruct (log_to_acc lm n F h t C Hh Hr Rg) as (y & p & A). exists y, p. repeat (split; [apply A|]). intros ->. lia. }
    exists y. split; [assumption|].
    assert (8 <= n <= 64)%Z as Hn by (destruct Hh; lia).
    assert (sg (t <? 0)%Z * p <> 0) as N0 by (unfold sg; destruct (t <? 0)%Z; lra).
    assert (Rlt_bool (sg (t <? 0)%Z * p) 0 = (t <? 0)%Z) as Es by (unfold sg; destruct (t <? 0)%Z; [apply Rlt_bool_true|apply Rlt_bool_false]; lra).
    assert (log_coord (sg (t <? 0)%Z * p) = 2 * ln p) as EL by (unfold log_coord; rewrite Rabs_mult, sg_abs, Rmult_1_l, Rabs_pos_eq by lra; reflexivity).
    destruct (log_from_inv _ _ _ _ Hg) as (m & K & ch & cg & eps & nw & Hm & Hps & Hch & Hcg & He & Hb & Hnw & Hf).
    rewrite Hf. rewrite (feq_isf y (fzero F) _ 0 Hy (FloatFacts.isf_zero F)), Req_bool_false by assumption.
    rewrite (fisfinite_isf y _ Hy). cbn [negb].
    destruct (log_enc_near lm m K F ch cg eps y _ C Hm Hps Hch Hcg He Hb Hy N0) as (L & T & -> & Nt & EL1). cbn [bind].
    rewrite Es in Nt. rewrite EL in EL1.
    pose proof (mo_range m Hm) as Hmn. set (d := bpow radix2 (2 - fprec K) + eps * (1 + bpow radix2 (2 - fprec K))) in *.
    set (l := l_ n t) in *. pose proof (Rabs_pos l) as L0.
    assert (Rabs (2 * ln p) <= Rabs l + Rabs (2 * ln p - l)) as B2 by (replace (2 * ln p) with (l + (2 * ln p - l)) at 1 by ring; apply Rabs_triang).
    assert (Rabs (L - l) <= d * Rabs (2 * ln p) + bpow radix2 (- m_n m) + Rabs (2 * ln p - l)) as EE.
    { replace (L - l) with ((L - 2 * ln p) + (2 * ln p - l)) by ring. eapply Rle_trans; [apply Rabs_triang|]. lra. }
    assert (d * Rabs (2 * ln p) <= bpow radix2 (2 - m_n m) * (Rabs l + Rabs (2 * ln p - l))) as DE.
    { eapply Rle_trans; [apply Rmult_le_compat_r; [apply Rabs_pos|exact Hb]|]. apply Rmult_le_compat_l; [apply bpow_ge_0|exact B2]. }
    assert (n = 64 \/ n <= 32)%Z as [->|S] by (destruct Hh; lia).
    + assert (m_n m = 64)%Z as E6 by (destruct Hnw as [[-> _]|[-> _]]; reflexivity).
      destruct Hnw as [[_ ->]|[_ [Hlt _]]]; [|lia]. f_equal. specialize (E64 eq_refl). rewrite E6 in *. change (2 - 64)%Z with (-62)%Z in DE. change (- (64))%Z with (-64)%Z in EE.
      destruct (Rle_or_lt (Rabs l) (1 / 2)) as [Sm|Bg].
      * apply (near_self0 64 ltac:(lia) t L); [assumption| |assumption]. fold l. simpl in *. lra.
      * apply (near_self 64 ltac:(lia) t L); [assumption| |assumption]. fold l. simpl in *. lra.
    + assert (bpow radix2 (4 - fprec F) <= bpow radix2 (-4 - n)) as QF.
      { apply bpow_le. assert (n + 8 <= fprec F)%Z; [|lia]. assert (F = f32 \/ 53 <= fprec F)%Z as [->|] by (destruct F; simpl; lia || (left; reflexivity)); [|lia].
        simpl in *. destruct Hh; simpl in *; lia. }
      assert (Rabs (2 * ln p - l) <= bpow radix2 (-4 - n) * (Rabs l + 1)) as E2 by (eapply Rle_trans; [exact E|]; apply Rmult_le_compat_r; lra).
      set (b := bpow radix2 (- n)). assert (0 < b <= / 256) as Hb2. { split; [apply bpow_gt_0|]. replace (/ 256) with (bpow radix2 (-8)) by (simpl; lra). apply bpow_le. lia. }
      assert (bpow radix2 (-4 - n) = b / 16) as B4. { replace (-4 - n)%Z with (-4 + - n)%Z by lia. rewrite bpow_plus. fold b. simpl. lra. }
      assert (bpow radix2 (3 - n) = 8 * b) as B3. { replace (3 - n)%Z with (3 + - n)%Z by lia. rewrite bpow_plus. fold b. simpl. lra. }
      rewrite B4 in E2. set (z := Rabs (2 * ln p - l)) in *.
      assert (b / 16 * (Rabs l + 1) <= Rabs l + 1) by nra.
      destruct Hnw as [[Em ->]|(E6 & Hlt & HN)].
      * f_equal. rewrite Em in *. apply (near_self n ltac:(lia) t L); [assumption| |assumption]. fold l. rewrite B3.
        assert (bpow radix2 (2 - n) = 4 * b) as B5. { replace (2 - n)%Z with (2 + - n)%Z by lia. rewrite bpow_plus. fold b. simpl. lra. }
        rewrite B5 in DE. fold b in EE. assert (4 * b * z <= 4 * b * (/ 16 * (Rabs l + 1))) by (apply Rmult_le_compat_l; nra).
        pose proof (Rmult_le_pos b (Rabs l) ltac:(lra) L0). lra.
      * rewrite E6 in *. destruct Nt as (RT & ST & NT).
        destruct (widen_real n t ltac:(lia) Hr) as (W1 & W2 & W3). 
        assert (has_sign (t <? 0)%Z (t * 2 ^ (64 - n))) as W4. { rewrite <- W2. unfold has_sign. destruct (Z.ltb_spec (t * 2 ^ (64 - n)) 0); [assumption|]. destruct W1. lia. }
        destruct (NT _ W1 W4) as [DT _]. rewrite W3 in DT. fold l in DT.
        apply narrowing_inv in HN as (HA & HB & _ & ->).
        destruct (reduce_real 64 n T HA HB Hlt RT) as (t' & -> & Nn & _). f_equal.
        rewrite (has_sign_ltb _ _ ST) in Nn by apply RT.
        apply (near_self n ltac:(lia) t (l_ 64 T)); [assumption| |assumption]. fold l. rewrite B3.
        replace (l_ 64 T - l) with ((l_ 64 T - L) + (L - l)) by ring. eapply Rle_lt_trans; [apply Rabs_triang|].
        rewrite (Rabs_minus_sym l) in DT. change (2 - 64)%Z with (-62)%Z in DE. change (- (64))%Z with (-64)%Z in EE.
        assert (bpow radix2 (-62) <= b / 2 ^ 20) as Q1.
        { replace (b / 2 ^ 20) with (bpow radix2 (-20 + - n)) by (rewrite bpow_plus; fold b; simpl; lra). apply bpow_le. lia. }
        assert (bpow radix2 (-64) <= b / 2 ^ 20) as Q2 by (simpl in *; lra).
        assert (bpow radix2 (-62) * (Rabs l + z) <= b / 2 ^ 20 * (Rabs l + (Rabs l + 1))) as Q3.
        { apply Rmult_le_compat; [apply bpow_ge_0| |assumption|lra]. assert (0 <= z) by apply Rabs_pos. lra. }
        pose proof (Rmult_le_pos b (Rabs l) ltac:(lra) L0). simpl in *. lra.
Qed.

(** ** Statements for the property file *)
Theorem log_from_faithful : forall lm n F g (y : flt F), c99 lm -> log_from_float lm n F g ->
  is_finite y = true -> exists t, g y = Val t /\ rounds_faithfully Logarithmic n (B2R y) t.
Proof.
  intros lm n F g y C H Fy. destruct (Req_dec (B2R y) 0) as [E|N].
  - exists 0%Z. destruct y as [s| | |s mm e He]; try discriminate.
    + split; [eapply log_from_0; eassumption|left; split; [assumption|reflexivity]].
    + exfalso. simpl in E. apply eq_0_F2R in E. destruct s; discriminate E.
  - destruct (log_from_real lm n F g y (B2R y) C H (conj Fy eq_refl) N) as (t & E & Ft). exists t. split; [assumption|]. right. split; assumption.
Qed.

Theorem log_to_accurate : forall lm n F h t x, c99 lm -> log_to_float lm n F h -> value Logarithmic n t = Some x ->
  is_intn n t -> x <> 0 -> (F = f32 -> Rabs (log_coord x) <= 159) ->
  exists y, h t = Val y /\ is_finite y = true /\ Rabs (B2R y - x) <= bpow radix2 (4 - fprec F) * (Rabs (log_coord x) + 1) * Rabs x.
Proof.
  intros lm n F h t x C H Hv It Hx Rg.
  assert (8 <= n <= 64)%Z as Hn by (destruct H; lia).
  destruct (takum_cases n t It) as [-> | [-> | Hr]].
  - rewrite value_0 in Hv by lia. congruence.
  - rewrite value_nar in Hv by lia. discriminate.
  - assert (x = sg (t <? 0)%Z * exp (l_ n t / 2)) as Ex.
    { rewrite value_log_real in Hv by (assumption || lia). injection Hv as <-. reflexivity. }
    assert (log_coord x = l_ n t) as EL.
    { unfold log_coord. rewrite Ex, Rabs_mult, sg_abs, Rmult_1_l, Rabs_pos_eq, ln_exp by (left; apply exp_pos). field. }
    rewrite EL in *. destruct (log_to_acc lm n F h t C H Hr Rg) as (y & p & Eh & [Fy Vy] & P & E).
    exists y. split; [assumption|]. split; [assumption|]. rewrite Vy, Ex, <- Rmult_minus_distr_l, !Rabs_mult, sg_abs, !Rmult_1_l, (Rabs_pos_eq (exp _)) by (left; apply exp_pos).
    set (l := l_ n t) in *. pose proof (l_abs n t ltac:(lia) Hr) as Hl. fold l in Hl.
    set (d := ln p - l / 2). assert (p - exp (l / 2) = (exp d - 1) * exp (l / 2)) as ->.
    { assert (p = exp (l / 2) * exp d) as Ep by (rewrite <- exp_plus; unfold d; replace (l / 2 + (ln p - l / 2)) with (ln p) by ring; rewrite exp_ln; auto). rewrite Ep at 1. ring. }
    rewrite Rabs_mult, (Rabs_pos_eq (exp (l / 2))) by (left; apply exp_pos).
    apply Rmult_le_compat_r; [left; apply exp_pos|].
    assert (2 * Rabs d <= bpow radix2 (4 - fprec F) * (Rabs l + 1)) as Hd.
    { rewrite <- (Rabs_pos_eq 2) at 1 by lra. rewrite <- Rabs_mult. replace (2 * d) with (2 * ln p - l) by (unfold d; field). assumption. }
    assert (bpow radix2 (4 - fprec F) * (Rabs l + 1) <= 1 / 4) as Hs.
    { assert (bpow radix2 (4 - fprec F) <= bpow radix2 (-20)) by (apply bpow_le; pose proof (fmt_pos F); lia). simpl in *. pose proof (Rabs_pos l). pose proof (bpow_gt_0 radix2 (4 - fprec F)). nra. }
    pose proof (exp_near d ltac:(lra)). pose proof (Rabs_pos d). nra.
Qed.

Theorem log_trip : forall lm n F h g t, c99 lm -> log_to_float lm n F h -> log_from_float lm n F g -> (n <= fprec F)%Z -> is_intn n t ->
  (F = f32 -> match value Logarithmic n t with Some x => x = 0 \/ Rabs (log_coord x) <= 159 | None => True end) ->
  (let! y := h t in g y) = Val t.
Proof.
  intros lm n F h g t C Hh Hg Hp It Rg.
  assert (exists y, h t = Val y /\ g y = Val t) as (y & -> & E); [|exact E].
  assert (8 <= n <= 64)%Z as Hn by (destruct Hh; lia).
  destruct (takum_cases n t It) as [-> | [-> | Hr]].
  - exists (B754_zero false). split; [apply (log_to_0 lm n); assumption|apply (log_from_0 lm n F); assumption].
  - exists B754_nan. split; [apply (log_to_nar lm n F); assumption|apply (log_from_nan lm n F); [assumption|reflexivity]].
  - apply (log_round_trip lm n F); try assumption. intros EF. specialize (Rg EF). rewrite value_log_real in Rg by (assumption || lia).
    destruct Rg as [Z|Rg].
    + exfalso. pose proof (exp_pos (l_ n t / 2)). unfold sg in Z. destruct (t <? 0)%Z; lra.
    + replace (log_coord (sg (t <? 0)%Z * exp (l_ n t / 2))) with (l_ n t) in Rg; [assumption|].
      unfold log_coord. rewrite Rabs_mult, sg_abs, Rmult_1_l, Rabs_pos_eq, ln_exp by (left; apply exp_pos). field.
Qed.

Theorem log_to_specials : forall lm n F h, c99 lm -> log_to_float lm n F h -> h 0%Z = Val (B754_zero false) /\ h (nar n) = Val B754_nan.
Proof. intros lm n F h C H. split; [eapply log_to_0|eapply log_to_nar]; eassumption. Qed.
Theorem log_from_specials : forall lm n F g (y : flt F), log_from_float lm n F g -> is_finite y = false -> g y = Val (nar n).
Proof. intros. eapply log_from_nan; eassumption. Qed.
