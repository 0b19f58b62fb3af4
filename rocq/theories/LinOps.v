(** Facts about operations on linear takums that compute with floats: the
    result is faithful, and correctly rounded if the exact result is not too
    near to, but different from, a point half-way between two takums. *)
From Coq Require Import ZArith Reals Bool Lia Lra List.
From Flocq Require Import Core.Core IEEE754.BinarySingleNaN.
From Verif Require Import CModel FloatModel WidthConv Codec Spec FloatSpec CodeFacts SpecFacts ValueFacts RoundFacts
  WidthFacts WidthProps FloatFacts DecodeFacts EncodeFacts PhiFacts Codec8Facts Machine Libm Conversion LinApi LinFacts
  LinDec LogProps MiscProps LogFacts PowFacts LinProps.
Local Open Scope R_scope.

(** ** The function Lin *)
Lemma Lin_tangent : forall x h, (1 + x - IZR h) * bpow radix2 h <= Lin x.
Proof.
  intros x h. unfold Lin. pose proof (Zfloor_lb x) as H1. pose proof (Zfloor_ub x) as H2. revert H1 H2.
  generalize (Zfloor x). intros f H1 H2.
  assert (exists g, x = IZR f + g /\ 0 <= g < 1) as (g & -> & Hg) by (exists (x - IZR f); split; [ring|lra]). clear H1 H2.
  replace (1 + (IZR f + g - IZR f)) with (1 + g) by ring.
  destruct (Z_lt_le_dec f h) as [L|L].
  - assert (exists d, h = f + d /\ 0 < d)%Z as (d & -> & Hd) by (exists (h - f)%Z; lia). clear L. rewrite bpow_plus, plus_IZR.
    apply Rle_trans with ((1 + g - IZR d) * bpow radix2 d * bpow radix2 f); [right; ring|].
    apply Rmult_le_compat_r; [apply bpow_ge_0|]. destruct (Z.eq_dec d 1) as [E|E].
    + rewrite E. simpl bpow. lra.
    + assert (2 <= IZR d) by (apply IZR_le; lia). pose proof (bpow_gt_0 radix2 d).
      assert ((1 + g - IZR d) * bpow radix2 d <= 0) by nra. lra.
  - assert (exists d, f = h + d /\ 0 <= d)%Z as (d & -> & Hd) by (exists (f - h)%Z; lia). clear L. rewrite bpow_plus, plus_IZR.
    apply Rle_trans with ((1 + g + IZR d) * bpow radix2 h); [right; ring|].
    rewrite (Rmult_comm (bpow radix2 h)), <- Rmult_assoc. apply Rmult_le_compat_r; [apply bpow_ge_0|].
    assert (1 + IZR d <= bpow radix2 d) as K.
    { rewrite <- IZR_pow2 by lia. rewrite <- plus_IZR. apply IZR_le.
      pose proof (Z.pow_gt_lin_r 2 d ltac:(lia) ltac:(lia)). lia. }
    assert (0 <= IZR d) by (apply IZR_le; lia). nra.
Qed.

(** slopes *)
Lemma Lin_slope : forall x y, (y - x) * bpow radix2 (Zfloor x) <= Lin y - Lin x.
Proof.
  intros x y. pose proof (Lin_tangent y (Zfloor x)) as H. unfold Lin at 2. nra.
Qed.

Lemma Lin_bpow : forall e, Lin (IZR e) = bpow radix2 e.
Proof. intros e. unfold Lin. rewrite Zfloor_IZR. ring. Qed.

Lemma Lin_le : forall x y, x <= y -> Lin x <= Lin y.
Proof. intros x y [H|<-]; [left; apply Lin_lt; assumption|lra]. Qed.

Lemma lin_coord_abs : forall x, lin_coord (Rabs x) = lin_coord x.
Proof. intros x. unfold Rabs. destruct (Rcase_abs x); [apply lin_coord_opp|reflexivity]. Qed.

Lemma lin_coord_le_iff : forall x y, x <> 0 -> (lin_coord x <= y <-> Rabs x <= Lin y).
Proof.
  intros x y Hx. rewrite <- (Lin_lin_coord x Hx). split; intros H; [apply Lin_le; assumption|].
  destruct (Rle_or_lt (lin_coord x) y) as [|K]; [assumption|]. apply Lin_lt in K. lra.
Qed.
Lemma lin_coord_ge_iff : forall x y, x <> 0 -> (y <= lin_coord x <-> Lin y <= Rabs x).
Proof.
  intros x y Hx. rewrite <- (Lin_lin_coord x Hx). split; intros H; [apply Lin_le; assumption|].
  destruct (Rle_or_lt y (lin_coord x)) as [|K]; [assumption|]. apply Lin_lt in K. lra.
Qed.

(** ** Faithful results *)
Record rd_ok (n : Z) (Rd : R -> R) : Prop := {
  rd_mono : forall x y, x <= y -> Rd x <= Rd y;
  rd_opp : forall x, Rd (- x) = - Rd x;
  rd_fix : forall u, (0 < u < 2 ^ (n - 1))%Z -> Rd (Lin (cpm n u)) = Lin (cpm n u)
}.

Lemma rd_0 : forall n Rd, rd_ok n Rd -> Rd 0 = 0.
Proof. intros n Rd H. pose proof (rd_opp _ _ H 0) as K. rewrite Ropp_0 in K. lra. Qed.

Lemma rd_abs : forall n Rd x, rd_ok n Rd -> Rabs (Rd x) = Rd (Rabs x).
Proof.
  intros n Rd x H. pose proof (rd_0 _ _ H) as E0. destruct (Rle_or_lt 0 x) as [K|K].
  - rewrite (Rabs_pos_eq x K). apply Rabs_pos_eq. rewrite <- E0. apply (rd_mono _ _ H). assumption.
  - rewrite (Rabs_left x K). rewrite (rd_opp _ _ H). apply Rabs_left1. rewrite <- E0. apply (rd_mono _ _ H). lra.
Qed.

Lemma rd_sign : forall n Rd x, rd_ok n Rd -> Rd x <> 0 -> Rlt_bool (Rd x) 0 = Rlt_bool x 0 /\ x <> 0.
Proof.
  intros n Rd x H Hx. pose proof (rd_0 _ _ H) as E0. split; [|intros ->; contradiction].
  destruct (Rlt_bool_spec x 0) as [K|K].
  - apply Rlt_bool_true. assert (Rd x <= Rd 0) by (apply (rd_mono _ _ H); lra). lra.
  - apply Rlt_bool_false. assert (Rd 0 <= Rd x) by (apply (rd_mono _ _ H); lra). lra.
Qed.

Lemma cpm_neg_ex : forall n u, (6 <= n <= 64)%Z -> (0 < u < 2 ^ (n - 1))%Z ->
  exists v, (0 < v < 2 ^ (n - 1))%Z /\ cpm n u = - cpm n v.
Proof. intros n u Hn Hu. exists (2 ^ (n - 1) - u)%Z. split; [lia|]. rewrite cpm_opp by lia. ring. Qed.

Lemma op_faithful : forall n F g Rd (y : flt F) z, linear_from_float n F g -> rd_ok n Rd -> isf y (Rd z) -> Rd z <> 0 ->
  exists t, g y = Val t /\ is_intn n t /\ rounds_faithfully Linear n z t.
Proof.
  intros n F g Rd y z H HR Hy Hne. pose proof (std_range n (from_std _ _ _ H)) as Hr.
  destruct (linear_from_form _ _ _ H) as (Hm & Hmn & Hrho & Hg & _).
  rewrite (Hg y _ Hy Hne). destruct (rd_sign n Rd z HR Hne) as [Es Hz]. rewrite Es.
  eexists; split; [reflexivity|]. split; [apply asm_enc_intn; lia|]. right. split; [assumption|]. cbn [coord].
  set (s := Rlt_bool z 0). set (rho := from_rho n F) in *.
  assert (forall v, (0 < v < 2 ^ (n - 1))%Z -> cpm n v <= lin_coord z -> cpm n v <= rho (lin_coord (Rd z))) as Lo.
  { intros v Hv K. rewrite <- (rho_fix _ _ Hrho v Hv). apply (rho_mono _ _ Hrho).
    apply lin_coord_ge_iff; [assumption|]. apply lin_coord_ge_iff in K; [|assumption].
    rewrite (rd_abs n Rd z HR), <- (rd_fix _ _ HR v Hv). apply (rd_mono _ _ HR). assumption. }
  assert (forall v, (0 < v < 2 ^ (n - 1))%Z -> lin_coord z <= cpm n v -> rho (lin_coord (Rd z)) <= cpm n v) as Hi.
  { intros v Hv K. rewrite <- (rho_fix _ _ Hrho v Hv). apply (rho_mono _ _ Hrho).
    apply lin_coord_le_iff; [assumption|]. apply lin_coord_le_iff in K; [|assumption].
    rewrite (rd_abs n Rd z HR), <- (rd_fix _ _ HR v Hv). apply (rd_mono _ _ HR). assumption. }
  pose proof (mo_psi_grid _ Hm) as Hpsi. rewrite Hmn in Hpsi.
  apply faithful_of_mono; [lia| |]; intros u Hu K; rewrite <- (Hpsi u ltac:(lia)); apply (mo_psi_mono _ Hm);
    destruct (cpm_neg_ex n u ltac:(lia) Hu) as (v & Hv & Ev); unfold sg; destruct s.
  - rewrite Ev in *. enough (rho (lin_coord (Rd z)) <= cpm n v) by lra. apply Hi; [assumption|lra].
  - rewrite Rmult_1_l in *. apply Lo; assumption.
  - rewrite Ev in *. enough (cpm n v <= rho (lin_coord (Rd z))) by lra. apply Lo; [assumption|lra].
  - rewrite Rmult_1_l in *. apply Hi; assumption.
Qed.

(** roundings that are rd_ok *)
Lemma FF_Lin_cpm : forall n u F, (6 <= n <= 64)%Z -> F <> f32 -> (n - 4 <= fprec F)%Z -> (0 < u < 2 ^ (n - 1))%Z ->
  FF F (Lin (cpm n u)).
Proof.
  intros n u F Hn HF HP Hu. assert (is_real_takum n (asm n false u)) as Hr by (apply asm_real; assumption).
  pose proof (FF_lin_value n _ F Hn HF HP Hr) as K.
  rewrite l_sg_cpm, asm_neg, low_asm in K by (assumption || lia). unfold sg in K. rewrite !Rmult_1_l in K. exact K.
Qed.

Lemma rd_RF : forall n F, (6 <= n <= 64)%Z -> F <> f32 -> (n - 4 <= fprec F)%Z -> rd_ok n (RF F).
Proof.
  intros n F Hn HF HP. split.
  - apply RF_mono.
  - apply RF_opp.
  - intros u Hu. apply RF_id, FF_Lin_cpm; assumption.
Qed.
Lemma rd_comp : forall n R1 R2, rd_ok n R1 -> rd_ok n R2 -> rd_ok n (fun x => R2 (R1 x)).
Proof.
  intros n R1 R2 [A1 A2 A3] [B1 B2 B3]. split.
  - auto.
  - intros x. rewrite A2, B2. reflexivity.
  - intros u Hu. rewrite A3, B3; auto.
Qed.

(** ** Points half-way between two takums *)
Definition halfway (n u : Z) : R := Lin (mid n u).
Definition hexp (n u : Z) : Z := Zfloor (mid n u).

(** the distance from a half-way point below which roundings may reach it *)
Definition Qn (n : Z) : Z := if (n =? 8)%Z then 15 else if (n =? 16)%Z then 44 else 53.

Section H.
Variable n : Z.
Hypothesis Hn : n = 8%Z \/ n = 16%Z \/ n = 32%Z.
Let Hn' : (6 <= n <= 64)%Z. Proof. lia. Qed.

Lemma halfway_dyadic : forall u, (0 < u < umax n)%Z ->
  exists C, (2 ^ (n - 4) <= C < 2 ^ (n - 3))%Z /\ halfway n u = IZR C * bpow radix2 (hexp n u - (n - 4)).
Proof.
  intros u Hu. destruct (mid_dyadic n Hn' u Hu) as (j & _ & E).
  destruct (Lin_dyadic j (n - 4) ltac:(lia)) as (C & HC & EC). exists C.
  replace (n - 4 + 1)%Z with (n - 3)%Z in HC by lia. split; [assumption|].
  unfold halfway, hexp. rewrite E. exact EC.
Qed.

Lemma hexp_bounds : forall u, (0 < u < umax n)%Z -> (-255 <= hexp n u <= 255)%Z.
Proof.
  intros u Hu. pose proof (mid_bounds n Hn' u Hu) as B. unfold hexp.
  assert (IZR (-255) <= mid n u <= IZR 255) as B' by (simpl; lra). split.
  - apply Zfloor_lub. apply B'.
  - apply le_IZR. pose proof (Zfloor_lb (mid n u)). lra.
Qed.

Lemma FF_halfway : forall u, (0 < u < umax n)%Z -> FF f64 (halfway n u).
Proof.
  intros u Hu. destruct (halfway_dyadic u Hu) as (C & HC & ->). pose proof (hexp_bounds u Hu).
  apply FF_dyadic.
  - change (fprec f64) with 53%Z. assert (2 ^ (n - 3) <= 2 ^ 53)%Z by (apply Z.pow_le_mono_r; lia).
    assert (0 < 2 ^ (n - 4))%Z by (apply Z.pow_pos_nonneg; lia). lia.
  - change (femin f64) with (-1074)%Z. lia.
Qed.

Lemma halfway_bounds : forall u, bpow radix2 (hexp n u) <= halfway n u < bpow radix2 (hexp n u + 1).
Proof. intros u. apply Lin_bounds. Qed.

(** rounding error of a number whose rounding is y *)
Lemma RF_err : forall F x e, (femin F <= e - fprec F)%Z -> Rabs (RF F x) < bpow radix2 e ->
  Rabs (RF F x - x) <= bpow radix2 (e - fprec F - 1).
Proof.
  intros F x e He H. pose proof (fmt_pos F) as Hp.
  pose proof (error_le_half_ulp_round radix2 (fexpo F) (fun z => negb (Z.even z)) x) as K. fold (RF F x) in K.
  eapply Rle_trans; [exact K|]. 
  replace (e - fprec F - 1)%Z with (-1 + (e - fprec F))%Z by lia. rewrite bpow_plus. change (bpow radix2 (-1)) with (/ 2).
  apply Rmult_le_compat_l; [lra|].
  rewrite <- (ulp_abs radix2 (fexpo F)).
  destruct (Req_dec (Rabs (RF F x)) 0) as [E|E].
  - rewrite E. change (fexpo F) with (FLT_exp (femin F) (fprec F)). rewrite (ulp_FLT_0 radix2 (femin F) (fprec F)). apply bpow_le. assumption.
  - rewrite ulp_neq_0 by assumption. apply bpow_le. unfold cexp, fexpo, SpecFloat.fexp, FLT_exp.
    assert (mag radix2 (Rabs (RF F x)) <= e)%Z as M.
    { apply mag_le_bpow; [assumption|]. rewrite Rabs_Rabsolu. assumption. }
    change (SpecFloat.emin (fprec F) (femax F)) with (femin F). lia.
Qed.

(** ** Correct results *)
Record rd_near (c : Z) (Rd : R -> R) : Prop := {
  rd_half : forall u, (0 < u < umax n)%Z -> Rd (halfway n u) = halfway n u;
  rd_close : forall z e, (-1000 <= e)%Z -> Rabs (Rd z) < bpow radix2 e -> Rabs (Rd z - z) <= bpow radix2 (e - c)
}.

Lemma Lin_close : forall x y d h, (0 <= d)%Z -> Zfloor y = h -> Rabs (x - y) <= bpow radix2 (- d) ->
  Rabs (Lin x - Lin y) <= bpow radix2 (h + 1 - d) /\ Lin x < bpow radix2 (h + 2).
Proof.
  intros x y d h Hd Hh H.
  assert (bpow radix2 (- d) <= 1) as D1 by (change 1 with (bpow radix2 0); apply bpow_le; lia).
  apply Rabs_le_inv in H. pose proof (Zfloor_lb y) as F1. pose proof (Zfloor_ub y) as F2. rewrite Hh in *.
  assert (Zfloor x <= h + 1)%Z as Fx.
  { apply Z.lt_succ_r. apply lt_IZR. pose proof (Zfloor_lb x). unfold Z.succ. rewrite !plus_IZR. lra. }
  pose proof (Lin_slope x y) as S1. pose proof (Lin_slope y x) as S2. rewrite Hh in S2.
  assert (bpow radix2 (Zfloor x) <= bpow radix2 (h + 1)) as G1 by (apply bpow_le; lia).
  assert (bpow radix2 h <= bpow radix2 (h + 1)) as G2 by (apply bpow_le; lia).
  assert (bpow radix2 (h + 1 - d) = bpow radix2 (- d) * bpow radix2 (h + 1)) as E by (rewrite <- bpow_plus; f_equal; lia).
  pose proof (bpow_gt_0 radix2 (Zfloor x)). pose proof (bpow_gt_0 radix2 h). pose proof (bpow_gt_0 radix2 (- d)).
  split.
  - rewrite E. destruct (Rle_or_lt x y) as [L|L].
    + assert (Lin x <= Lin y) by (apply Lin_le; assumption). rewrite Rabs_left1 by lra.
      apply Rle_trans with ((y - x) * bpow radix2 h); [|apply Rmult_le_compat; lra]. lra.
    + assert (Lin y <= Lin x) by (apply Lin_le; lra). rewrite Rabs_pos_eq by lra.
      apply Rle_trans with ((x - y) * bpow radix2 (Zfloor x)); [lra|]. apply Rmult_le_compat; lra.
  - eapply Rlt_le_trans; [apply Lin_bounds|]. apply bpow_le. lia.
Qed.

Lemma rho_half : forall u, (0 < u < umax n)%Z -> from_rho n f64 (mid n u) = mid n u.
Proof.
  intros u Hu. destruct (mid_dyadic n Hn' u Hu) as (j & Hj & E). pose proof (mid_bounds n Hn' u Hu) as B.
  assert (n = 8 \/ n = 16 -> forall F, 24 <= fprec F -> femin F <= -148 -> RF F (mid n u) = mid n u)%Z as K.
  { intros H8 F H24 HF. apply RF_id. rewrite E. apply FF_dyadic; [|lia].
    assert (IZR (Z.abs j) <= IZR (255 * 2 ^ (n - 4))) as A.
    { rewrite abs_IZR, mult_IZR, IZR_pow2 by lia. apply Rabs_le in B. rewrite E, Rabs_mult, (Rabs_pos_eq (bpow _ _)) in B by apply bpow_ge_0.
      rewrite bpow_opp in B. pose proof (bpow_gt_0 radix2 (n - 4)).
      apply Rmult_le_compat_r with (r := bpow radix2 (n - 4)) in B; [|lra].
      rewrite Rmult_assoc, Rinv_l, Rmult_1_r in B by lra. exact B. }
    apply le_IZR in A. assert (255 * 2 ^ (n - 4) <= 2 ^ fprec F)%Z; [|lia].
    apply Z.le_trans with (2 ^ 24)%Z; [destruct H8 as [-> | ->]; vm_compute; discriminate|apply Z.pow_le_mono_r; lia]. }
  unfold from_rho. destruct Hn as [-> | [-> | ->]]; cbn; [| |reflexivity]; apply K; (lia || (unfold femin; simpl; lia)).
Qed.

Lemma op_close : forall c Rd z u, rd_ok n Rd -> rd_near c Rd -> (53 <= c)%Z -> (n = 32%Z -> c = 54%Z) -> (0 < u < umax n)%Z ->
  0 < z -> Rd z <> 0 -> from_rho n f64 (lin_coord (Rd z)) = mid n u -> Rabs (z - halfway n u) <= bpow radix2 (hexp n u - Qn n).
Proof.
  intros c Rd z u HR HN Hc Hc32 Hu Hz Hne E. pose proof (hexp_bounds u Hu) as Hh.
  assert (0 < Rd z) as Hpos.
  { assert (Rd 0 <= Rd z) by (apply (rd_mono _ _ HR); lra). rewrite (rd_0 _ _ HR) in H. lra. }
  set (M := mid n u) in *. set (L := lin_coord (Rd z)) in *. set (h := hexp n u) in *.
  assert (Lin L = Rd z) as EL by (unfold L; rewrite Lin_lin_coord, Rabs_pos_eq by lra; reflexivity).
  destruct (Z.eq_dec n 32) as [H32|H32].
  - assert (L = M) as ELM by (rewrite <- E, H32; reflexivity).
    assert (Rd z = halfway n u) as Eh by (rewrite <- EL, ELM; reflexivity).
    pose proof (rd_close _ _ HN z (h + 1) ltac:(lia)) as K.
    rewrite Rabs_minus_sym, <- Eh. eapply Rle_trans; [apply K|].
    + rewrite Rabs_pos_eq by lra. rewrite Eh. apply halfway_bounds.
    + apply bpow_le. rewrite (Hc32 H32), H32. change (Qn 32) with 53%Z. lia.
  - assert (Rabs (L - M) <= bpow radix2 (- (Qn n + 2)) /\ (15 <= Qn n <= 44)%Z) as [D HQ].
    { assert (Rabs M < bpow radix2 8) as BM.
      { pose proof (mid_bounds n Hn' u Hu). fold M in H. apply Rabs_le in H. change (bpow radix2 8) with 256. lra. }
      rewrite Rabs_minus_sym. rewrite <- E in BM |- *. destruct Hn as [-> | [-> | ->]]; [| |lia]; (split; [|vm_compute; lia || (vm_compute; split; discriminate)]).
      - apply (RF_err f32 L 8); [unfold femin; simpl; lia|exact BM].
      - apply (RF_err f64 L 8); [unfold femin; simpl; lia|exact BM]. }
    destruct (Lin_close L M (Qn n + 2) h ltac:(lia) eq_refl D) as [C1 C2]. rewrite EL in C1, C2.
    change (Lin M) with (halfway n u) in C1.
    pose proof (rd_close _ _ HN z (h + 2) ltac:(lia)) as K. rewrite Rabs_pos_eq in K by lra. specialize (K C2).
    replace (z - halfway n u) with ((Rd z - halfway n u) - (Rd z - z)) by ring.
    eapply Rle_trans; [apply Rabs_triang|]. rewrite Rabs_Ropp.
    assert (bpow radix2 (h + 2 - c) <= bpow radix2 (h - Qn n - 1)) by (apply bpow_le; lia).
    replace (h + 1 - (Qn n + 2))%Z with (h - Qn n - 1)%Z in C1 by lia.
    assert (bpow radix2 (h - Qn n) = 2 * bpow radix2 (h - Qn n - 1)); [|lra].
    replace (h - Qn n)%Z with (1 + (h - Qn n - 1))%Z at 1 by lia. rewrite bpow_plus. reflexivity.
Qed.

Lemma op_rounds : forall c g Rd (y : flt f64) z, linear_from_float n f64 g -> rd_ok n Rd -> rd_near c Rd ->
  (53 <= c)%Z -> (n = 32%Z -> c = 54%Z) -> isf y (Rd z) -> Rd z <> 0 ->
  (forall u, (0 < u < umax n)%Z -> Rabs (Rabs z - halfway n u) <= bpow radix2 (hexp n u - Qn n) -> Rabs z = halfway n u) ->
  exists t, g y = Val t /\ is_intn n t /\ rounds Linear n z t.
Proof.
  intros c g Rd y z H HR HN Hc Hc32 Hy Hne Hgap.
  rewrite (lin_from_nearest _ _ _ _ _ H ltac:(intros [? [=]]) Hy Hne).
  destruct (rd_sign n Rd z HR Hne) as [Es Hz]. rewrite Es.
  eexists; split; [reflexivity|]. split; [apply asm_enc_intn; lia|]. right. split; [assumption|]. cbn [coord].
  assert (enc n (from_rho n f64 (lin_coord (Rd z))) = enc n (lin_coord z)) as EE.
  { rewrite <- (lin_coord_abs (Rd z)), (rd_abs n Rd z HR), <- (lin_coord_abs z).
    assert (0 < Rabs z) as Pz by (apply Rabs_pos_lt; assumption).
    assert (Rd (Rabs z) <> 0) as Nz by (rewrite <- (rd_abs n Rd z HR); apply Rabs_no_R0; assumption).
    revert Pz Nz Hgap. generalize (Rabs z). clear z Hy Hne Es Hz y. intros z Pz Nz Hgap.
    destruct (linear_from_form _ _ _ H) as (_ & _ & Hrho & _).
    assert (0 < Rd z) as Hpos.
    { assert (Rd 0 <= Rd z) by (apply (rd_mono _ _ HR); lra). rewrite (rd_0 _ _ HR) in H0. lra. }
    assert (forall u, (0 < u < umax n)%Z -> lin_coord z <= mid n u -> from_rho n f64 (lin_coord (Rd z)) <= mid n u) as A1.
    { intros u Hu K. rewrite <- (rho_half u Hu). apply (rho_mono _ _ Hrho). apply lin_coord_le_iff; [assumption|].
      apply lin_coord_le_iff in K; [|lra]. rewrite Rabs_pos_eq in * by lra. fold (halfway n u) in *.
      rewrite <- (rd_half _ _ HN u Hu). apply (rd_mono _ _ HR). assumption. }
    assert (forall u, (0 < u < umax n)%Z -> mid n u <= lin_coord z -> mid n u <= from_rho n f64 (lin_coord (Rd z))) as A2.
    { intros u Hu K. rewrite <- (rho_half u Hu). apply (rho_mono _ _ Hrho). apply lin_coord_ge_iff; [assumption|].
      apply lin_coord_ge_iff in K; [|lra]. rewrite Rabs_pos_eq in * by lra. fold (halfway n u) in *.
      rewrite <- (rd_half _ _ HN u Hu). apply (rd_mono _ _ HR). assumption. }
    assert (forall u, (0 < u < umax n)%Z -> from_rho n f64 (lin_coord (Rd z)) = mid n u -> lin_coord z = mid n u) as A3.
    { intros u Hu K. rewrite (Hgap u Hu (op_close c Rd z u HR HN Hc Hc32 Hu Pz Nz K)). unfold halfway. apply lin_coord_Lin. }
    apply enc_stable; [lia|]. intros u Hu. specialize (A1 u Hu). specialize (A2 u Hu). specialize (A3 u Hu). split; [|split].
    - intros K. destruct (A1 (Rlt_le _ _ K)) as [|E]; [assumption|]. specialize (A3 E). lra.
    - intros K. destruct (A2 (Rlt_le _ _ K)) as [|E]; [assumption|]. specialize (A3 (eq_sym E)). lra.
    - intros K. specialize (A1 (Req_le _ _ K)). specialize (A2 (Req_le_sym _ _ K)). lra. }
  assert (enc n (sg (Rlt_bool z 0) * from_rho n f64 (lin_coord (Rd z))) = enc n (sg (Rlt_bool z 0) * lin_coord z)) as ->.
  { unfold sg. destruct (Rlt_bool z 0).
    - replace (-1 * from_rho n f64 (lin_coord (Rd z))) with (- from_rho n f64 (lin_coord (Rd z))) by ring.
      replace (-1 * lin_coord z) with (- lin_coord z) by ring. rewrite !enc_opp, EE by lia. reflexivity.
    - rewrite !Rmult_1_l. exact EE. }
  apply enc_nearest_sg. lia.
Qed.

Lemma near_RF64 : rd_near 54 (RF f64).
Proof.
  split.
  - intros u Hu. apply RF_id, FF_halfway. assumption.
  - intros z e He H. pose proof (RF_err f64 z e ltac:(unfold femin; simpl; lia) H) as K. change (fprec f64) with 53%Z in K.
    replace (e - 53 - 1)%Z with (e - 54)%Z in K by lia. exact K.
Qed.

Lemma FF_mono_f80 : forall x, FF f64 x -> FF f80 x.
Proof.
  intros x H. unfold FF in *. apply (generic_inclusion_mag radix2 (fexpo f64)); [|exact H].
  intros _. unfold fexpo, SpecFloat.fexp, SpecFloat.emin. simpl. lia.
Qed.

Lemma near_RF80 : rd_near 53 (fun x => RF f64 (RF f80 x)).
Proof.
  split.
  - intros u Hu. rewrite (RF_id f80) by (apply FF_mono_f80, FF_halfway; assumption). apply RF_id, FF_halfway. assumption.
  - intros z e He H. set (w := RF f80 z) in *.
    pose proof (RF_err f64 w e ltac:(unfold femin; simpl; lia) H) as K. change (fprec f64) with 53%Z in K.
    replace (e - 53 - 1)%Z with (e - 54)%Z in K by lia.
    assert (bpow radix2 (e - 54) < bpow radix2 e) as G by (apply bpow_lt; lia).
    assert (bpow radix2 (e + 1) = 2 * bpow radix2 e) as G2 by (rewrite bpow_plus; change (bpow radix2 1) with 2; ring).
    assert (Rabs (RF f80 z) < bpow radix2 (e + 1)) as B.
    { fold w. replace w with (RF f64 w - (RF f64 w - w)) by ring. eapply Rle_lt_trans; [apply Rabs_triang|]. rewrite Rabs_Ropp. lra. }
    pose proof (RF_err f80 z (e + 1) ltac:(unfold femin; simpl; lia) B) as K2. fold w in K2. change (fprec f80) with 64%Z in K2.
    assert (bpow radix2 (e + 1 - 64 - 1) <= bpow radix2 (e - 54)) as G3 by (apply bpow_le; lia).
    assert (bpow radix2 (e - 53) = 2 * bpow radix2 (e - 54)) as G4.
    { replace (e - 53)%Z with (1 + (e - 54))%Z by lia. rewrite bpow_plus. reflexivity. }
    replace (RF f64 w - z) with ((RF f64 w - w) + (w - z)) by ring. eapply Rle_trans; [apply Rabs_triang|]. lra.
Qed.

End H.
