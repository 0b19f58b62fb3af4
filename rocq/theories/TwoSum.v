(** The rounding error of a sum of linear takums is a takum, and how to compute
    it (C106, C107). *)
From Coq Require Import ZArith Reals Bool Lia Lra.
From Flocq Require Import Core.Core.
From Verif Require Import CModel FloatModel WidthConv Spec CodeFacts SpecFacts ValueFacts RoundFacts WidthFacts WidthApi WidthProps Machine LogProps LinOps LinApi LinArith LinAlgebra LinArithRefute MiscProps WidthSteps RangeSpec RangeFacts Exactly Sterbenz Octant Wrappers ErrorSpec ErrorProps Sums.
Local Open Scope R_scope.

Definition ulpe (n h : Z) : Z := (h - (n - 5 - regc h))%Z.
Lemma ulpe_mono : forall n e h, (-255 <= e <= h)%Z -> (h < 255)%Z -> (ulpe n e <= ulpe n h)%Z.
Proof. intros n e h H1 H2. unfold ulpe. pose proof (regc_mono e h H1 H2). lia. Qed.
Lemma takum_multiple : forall n x, std_width n -> n <> 8%Z -> has_takum Linear n x -> x <> 0 ->
  exists h, bpow radix2 h <= Rabs x < bpow radix2 (h + 1) /\ (-255 <= h < 255)%Z /\ forall q, (q <= ulpe n h)%Z -> exists K, x = IZR K * bpow radix2 q.
Proof.
  intros n x Sw N8 (t & It & V) Nx. pose proof (std_range n Sw) as Hn. destruct (takum_cases n t It) as [->|[->|R]].
  - rewrite value_0 in V. congruence.
  - rewrite value_nar in V by lia. discriminate.
  - rewrite (value_real n) in V by (assumption || lia). change (E Linear (l_ n t)) with (Lin (l_ n t)) in V. assert (x = (if (t <? 0)%Z then -1 else 1) * Lin (l_ n t)) as -> by congruence. clear V.
    exists (Zfloor (l_ n t)). pose proof (Lin_pos (l_ n t)). split; [|split; [apply floor_l; [lia|assumption]|]].
    + rewrite Rabs_mult. replace (Rabs (if (t <? 0)%Z then -1 else 1)) with 1 by (destruct (t <? 0)%Z; [rewrite Rabs_left by lra|rewrite Rabs_R1]; ring).
      rewrite Rmult_1_l, Rabs_pos_eq by lra. apply Lin_bounds.
    + intros q Hq. destruct (Lin_multiple n t q ltac:(unfold std_width in Sw; lia) R Hq) as (K & ->).
      destruct (t <? 0)%Z; [exists (- K)%Z; rewrite opp_IZR; ring|exists K; ring].
Qed.
Lemma multiple_rep : forall n x K q e h, std_width n -> n <> 8%Z -> x = IZR K * bpow radix2 q -> bpow radix2 e <= Rabs x < bpow radix2 (e + 1) ->
  (e <= h < 255)%Z -> (ulpe n h <= q)%Z -> bpow radix2 (-255) < Rabs x -> has_takum Linear n x.
Proof.
  intros n x K q e h Sw N8 Ex He Hh Hq Hm. assert (12 <= n <= 64)%Z as Hn by (unfold std_width in Sw; lia).
  assert (-255 <= e)%Z by (assert (-255 < e + 1)%Z; [|lia]; apply (lt_bpow radix2); lra).
  assert (x <> 0) as Nx by (intros ->; rewrite Rabs_R0 in He; pose proof (bpow_gt_0 radix2 e); lra).
  apply rep_value; [assumption..|]. simpl coord. pose proof (bpow_gt_0 radix2 e) as Pe.
  assert (lin_coord x = IZR e + (Rabs x / bpow radix2 e - 1)) as Ec.
  { unfold lin_coord. rewrite (mag_unique radix2 x (e + 1)) by (replace (e + 1 - 1)%Z with e by lia; assumption). replace (e + 1 - 1)%Z with e by lia. reflexivity. }
  assert (1 <= Rabs x / bpow radix2 e < 2) as Q.
  { rewrite bpow_plus in He. change (bpow radix2 1) with 2 in He. split;
    [apply (Rmult_le_reg_r (bpow radix2 e)); [assumption|]|apply (Rmult_lt_reg_r (bpow radix2 e)); [assumption|]]; unfold Rdiv; rewrite Rmult_assoc, Rinv_l by lra; lra. }
  assert (Zfloor (lin_coord x) = e) as Fe by (apply Zfloor_imp; rewrite plus_IZR, Ec; lra).
  destruct (regc_bound e ltac:(lia)) as [Re _]. pose proof (ulpe_mono n e h ltac:(lia) ltac:(lia)) as U. unfold ulpe in U at 1.
  assert (Rabs x = IZR (Z.abs K) * bpow radix2 q) as Ea. { rewrite Ex, Rabs_mult, abs_IZR, (Rabs_pos_eq (bpow radix2 q)) by apply bpow_ge_0. reflexivity. }
  apply (rep_regime n _ ((e - 1) * 2 ^ (Z.max 0 (e - q)) + Z.abs K * 2 ^ (q - e + Z.max 0 (e - q))) (Z.max 0 (e - q))); [lia| | |].
  - rewrite Ec. split.
    + destruct (Z.eq_dec e (-255)) as [->|N].
      * assert (1 < Rabs x / bpow radix2 (-255)); [|lra]. apply (Rmult_lt_reg_r (bpow radix2 (-255))); [assumption|]. unfold Rdiv. rewrite Rmult_assoc, Rinv_l by lra. lra.
      * assert (IZR (-254) <= IZR e) by (apply IZR_le; lia). lra.
    + assert (IZR e <= IZR 254) by (apply IZR_le; lia). lra.
  - rewrite Fe. fold (regc e). lia.
  - rewrite Ec, Ea. set (d := Z.max 0 (e - q)). rewrite plus_IZR, !mult_IZR, !minus_IZR, !IZR_pow2 by lia.
    replace (q - e + d)%Z with (q + (- e + d))%Z by lia. rewrite !bpow_plus, !bpow_opp. pose proof (bpow_gt_0 radix2 d). field. lra.
Qed.
Lemma exponent_exists : forall x, x <> 0 -> exists e, bpow radix2 e <= Rabs x < bpow radix2 (e + 1).
Proof.
  intros x Nx. exists (mag radix2 x - 1)%Z. destruct (mag radix2 x) as [e He]. simpl. specialize (He Nx). replace (e - 1 + 1)%Z with e by lia. assumption.
Qed.
Lemma bpow_takum : forall n h, std_width n -> n <> 8%Z -> (-254 <= h <= 254)%Z -> has_takum Linear n (bpow radix2 h).
Proof.
  intros n h Sw N8 Hh. rewrite <- Lin_bpow. apply (Lin_takum n _ h 0); [assumption|split; apply IZR_lt; lia| |].
  - rewrite Zfloor_IZR. destruct (regc_bound h ltac:(lia)) as [B _]. unfold std_width in Sw. lia.
  - change (bpow radix2 (- 0)) with 1. ring.
Qed.

(** * Rounding to nearest is nearest in value *)
Definition closest (n : Z) (z v : R) : Prop := has_takum Linear n v /\ forall w, has_takum Linear n w -> Rabs (v - z) <= Rabs (w - z).
Lemma nearest_closest : forall n z t, std_width n -> n <> 8%Z -> rounds Linear n z t -> bpow radix2 (-254) <= Rabs z < bpow radix2 254 ->
  exists v, value Linear n t = Some v /\ closest n z v.
Proof.
  intros n z t Sw N8 H Hz. pose proof (std_range n Sw) as Hn.
  destruct (lin_exponent z Hz) as (h & He & Hh). destruct (rounds_error Linear n z t Sw N8 H h He Hh) as (v & V & Er). exists v. split; [assumption|].
  destruct (rounds_faithful Linear n z t Sw H) as [[Z0 _]|[Nz (R & S & F)]]; [subst z; rewrite Rabs_R0 in Hz; pose proof (bpow_gt_0 radix2 (-254)); lra|].
  split; [exists t; split; [apply R|assumption]|]. intros w (b & Ib & Vb).
  destruct (exponent_coord Linear z h He) as [_ Hc]. destruct H as [[? _]|[_ (_ & _ & H)]]; [contradiction|].
  assert (Rabs (v - z) <= Rabs z) as Small.
  { eapply Rle_trans; [exact Er|]. rewrite <- (Rmult_1_l (Rabs z)) at 2. apply Rmult_le_compat_r; [apply Rabs_pos|]. rewrite powerRZ_bpow. change 1 with (bpow radix2 0). apply bpow_le.
    pose proof (fraction_bits_ge n h ltac:(lia)). unfold std_width in Sw. lia. }
  set (s := Rlt_bool z 0) in *. pose proof (real_sg Linear z Nz) as Ez. fold s in Ez. change (E Linear (coord Linear z)) with (Lin (lin_coord z)) in Ez. simpl coord in *.
  set (L := lin_coord z) in *.
  assert (v = (if s then -1 else 1) * Lin (l_ n t)) as Ev.
  { rewrite (value_real n) in V by (assumption || lia). assert ((t <? 0)%Z = s) as Es by (unfold has_sign in S; destruct s; lia). rewrite Es in V. change (E Linear (l_ n t)) with (Lin (l_ n t)) in V. congruence. }
  assert (forall p, Rabs ((if s then -1 else 1) * p - z) = Rabs (p - Lin L)) as Dist.
  { intros p. rewrite Ez, <- Rmult_minus_distr_l, Rabs_mult. destruct s; [rewrite Rabs_left by lra|rewrite Rabs_R1]; ring. }
  assert (forall c, has_takum Linear n (Lin c) -> Rabs (l_ n t - L) <= Rabs (c - L)) as Near.
  { intros c Hc'. assert (exists t', is_real_takum n t' /\ has_sign s t' /\ l_ n t' = c) as (t' & R' & S' & <-).
    { destruct Hc' as (a & Ia & Va). pose proof (Lin_pos c) as Pc. destruct (takum_cases n a Ia) as [->|[->|Ra]].
      - rewrite value_0 in Va. assert (Lin c = 0) by congruence. lra.
      - rewrite value_nar in Va by lia. discriminate.
      - pose proof (positive_takum _ n a _ Sw Ia Va Pc) as Pa. rewrite (value_real n) in Va by (assumption || lia). replace (a <? 0)%Z with false in Va by lia. rewrite Rmult_1_l in Va.
        assert (l_ n a = c) as Ea. { rewrite <- (lin_coord_Lin (l_ n a)), <- (lin_coord_Lin c). f_equal. change (E Linear (l_ n a)) with (Lin (l_ n a)) in Va. congruence. }
        destruct (sg_opp_rep n s c ltac:(lia)) as (t' & R' & S' & L').
        + destruct (code_of_l n a ltac:(lia) Ra) as (u & Bu & Eu). exists u. split; [assumption|congruence].
        + exists t'. split; [assumption|]. split; [|assumption]. destruct R' as (_ & N0 & _). unfold has_sign. destruct s; lia. }
    apply (H t' R' S'). }
  destruct (takum_cases n b Ib) as [->|[->|Rb]].
  { rewrite value_0 in Vb. assert (w = 0) as -> by congruence. rewrite Rminus_0_l, Rabs_Ropp. assumption. }
  { rewrite value_nar in Vb by lia. discriminate. }
  rewrite (value_real n) in Vb by (assumption || lia). change (E Linear (l_ n b)) with (Lin (l_ n b)) in Vb.
  assert (w = (if (b <? 0)%Z then -1 else 1) * Lin (l_ n b)) as -> by congruence. clear Vb. pose proof (Lin_pos (l_ n b)) as Pb. pose proof (Lin_pos L) as PL.
  destruct (Bool.bool_dec (b <? 0)%Z s) as [Es|Ns].
  - rewrite Es, Ev, !Dist.
    assert (forall c, IZR h <= c <= IZR h + 1 -> Rabs (Lin c - Lin L) = Rabs (c - L) * bpow radix2 h) as Aff.
    { intros c Hc'. rewrite (Lin_binade h c Hc'), (Lin_binade h L) by lra. pose proof (bpow_gt_0 radix2 h). rewrite <- (Rabs_pos_eq (bpow radix2 h)) at 3 by lra. rewrite <- Rabs_mult. f_equal. ring. }
    pose proof (bpow_gt_0 radix2 h) as Ph.
    assert (has_takum Linear n (Lin (IZR h))) as Th by (rewrite Lin_bpow; apply bpow_takum; (assumption || lia)).
    assert (has_takum Linear n (Lin (IZR h + 1))) as Th1 by (rewrite <- (plus_IZR h 1), Lin_bpow; apply bpow_takum; (assumption || lia)).
    pose proof (Near _ Th) as N1. pose proof (Near _ Th1) as N2. rewrite (Rabs_left1 (IZR h - L)) in N1 by lra. rewrite (Rabs_pos_eq (IZR h + 1 - L)) in N2 by lra.
    apply Rabs_le_inv in N1, N2.
    assert (IZR h <= l_ n t <= IZR h + 1) as Bt.
    { assert (Bt1 : exists t1, is_real_takum n t1 /\ has_sign s t1 /\ l_ n t1 = IZR h).
      { destruct (sg_opp_rep n s (IZR h) ltac:(lia)) as (t' & R' & S' & L'); [|exists t'; split; [assumption|]; split; [|assumption]; destruct R' as (_ & N0 & _); unfold has_sign; destruct s; lia].
        apply (rep_regime n _ h 0); [lia|split; apply IZR_lt; lia| |change (bpow radix2 (- 0)) with 1; ring]. rewrite Zfloor_IZR. fold (regc h). destruct (regc_bound h ltac:(lia)). unfold std_width in Sw. lia. }
      assert (Bt2 : exists t1, is_real_takum n t1 /\ has_sign s t1 /\ l_ n t1 = IZR (h + 1)).
      { destruct (sg_opp_rep n s (IZR (h + 1)) ltac:(lia)) as (t' & R' & S' & L'); [|exists t'; split; [assumption|]; split; [|assumption]; destruct R' as (_ & N0 & _); unfold has_sign; destruct s; lia].
        apply (rep_regime n _ (h + 1) 0); [lia|split; apply IZR_lt; lia| |change (bpow radix2 (- 0)) with 1; ring]. rewrite Zfloor_IZR. fold (regc (h + 1)). destruct (regc_bound (h + 1) ltac:(lia)). unfold std_width in Sw. lia. }
      destruct Bt1 as (t1 & R1 & S1 & L1). destruct Bt2 as (t2 & R2 & S2 & L2). destruct (F t1 R1 S1) as [F1 _]. destruct (F t2 R2 S2) as [_ F2]. rewrite L1 in F1. rewrite L2, plus_IZR in F2.
      split; apply Rnot_lt_le; intro; [apply F1|apply F2]; lra. }
    rewrite (Aff _ Bt). destruct (Rlt_or_le (l_ n b) (IZR h)) as [K|K]; [|destruct (Rle_or_lt (l_ n b) (IZR h + 1)) as [K'|K']].
    + pose proof (Lin_le (l_ n b) (IZR h) ltac:(lra)) as K1. pose proof (Aff (IZR h) ltac:(lra)) as A1. pose proof (Near _ Th) as N3. pose proof (Lin_le (IZR h) L ltac:(lra)) as K2.
      rewrite (Rabs_left1 (Lin (l_ n b) - _)) by lra. rewrite (Rabs_left1 (Lin (IZR h) - _)) in A1 by lra. assert (Rabs (l_ n t - L) * bpow radix2 h <= Rabs (IZR h - L) * bpow radix2 h) by (apply Rmult_le_compat_r; lra). lra.
    + rewrite (Aff (l_ n b)) by lra. apply Rmult_le_compat_r; [lra|]. apply Near. exists (Z.abs b). split.
      * destruct Rb as (I & N0 & Nn). unfold is_intn, nar in *. pose proof (pow2_pos (n - 1)). lia.
      * assert (is_real_takum n (Z.abs b)) as Ra by (destruct Rb as (I & N0 & Nn); unfold is_real_takum, is_intn, nar in *; pose proof (pow2_pos (n - 1)); lia).
        rewrite (value_real n) by (assumption || lia). replace (Z.abs b <? 0)%Z with false by lia. change (E Linear (l_ n (Z.abs b))) with (Lin (l_ n (Z.abs b))). rewrite Rmult_1_l. f_equal. f_equal.
        destruct (Z.ltb_spec b 0); [replace (Z.abs b) with (- b)%Z by lia; apply l_neg; (assumption || lia)|replace (Z.abs b) with b by lia; reflexivity].
    + pose proof (Lin_le (IZR h + 1) (l_ n b) ltac:(lra)) as K1. pose proof (Aff (IZR h + 1) ltac:(lra)) as A1. pose proof (Near _ Th1) as N3. pose proof (Lin_le L (IZR h + 1) ltac:(lra)) as K2.
      rewrite (Rabs_pos_eq (Lin (l_ n b) - _)) by lra. rewrite (Rabs_pos_eq (Lin (IZR h + 1) - _)) in A1 by lra. assert (Rabs (l_ n t - L) * bpow radix2 h <= Rabs (IZR h + 1 - L) * bpow radix2 h) by (apply Rmult_le_compat_r; lra). lra.
  - eapply Rle_trans; [exact Small|]. rewrite Ez. destruct s, (b <? 0)%Z; try contradiction.
    + rewrite Rabs_left by lra. rewrite Rabs_pos_eq by lra. lra.
    + rewrite Rabs_pos_eq by lra. rewrite Rabs_left by lra. lra.
Qed.

(** * The error of a sum *)
Lemma closest_opp : forall n z v, std_width n -> closest n z v -> closest n (- z) (- v).
Proof.
  intros n z v Sw [Hv H]. split; [apply has_takum_opp; assumption|]. intros w Hw. specialize (H (- w) (has_takum_opp _ _ _ Sw Hw)).
  replace (- v - - z) with (- (v - z)) by ring. replace (w - - z) with (- (- w - z)) by ring. rewrite !Rabs_Ropp. assumption.
Qed.
Lemma closest_self : forall n z v, closest n z v -> has_takum Linear n z -> v = z.
Proof. intros n z v [_ H] Hz. specialize (H z Hz). unfold Rminus in H at 2. rewrite Rplus_opp_r, Rabs_R0 in H. pose proof (Rabs_pos (v - z)). destruct (Req_dec v z) as [|N]; [assumption|]. pose proof (Rabs_pos_lt (v - z) ltac:(lra)). lra. Qed.
Lemma closest_ge : forall n z v w, closest n z v -> has_takum Linear n w -> w <= z -> w <= v.
Proof. intros n z v w [_ H] Hw L. specialize (H w Hw). apply Rnot_lt_le. intro K. rewrite !Rabs_left1 in H by lra. lra. Qed.
Lemma closest_le : forall n z v w, closest n z v -> has_takum Linear n w -> z <= w -> v <= w.
Proof. intros n z v w [_ H] Hw L. specialize (H w Hw). apply Rnot_lt_le. intro K. rewrite !Rabs_pos_eq in H by lra. lra. Qed.
Lemma error_rep_pos : forall n x y v, std_width n -> n <> 8%Z -> has_takum Linear n x -> has_takum Linear n y -> Rabs y <= Rabs x -> bpow radix2 (-254) <= x + y < bpow radix2 254 ->
  closest n (x + y) v -> x + y - v = 0 \/ bpow radix2 (-255) < Rabs (x + y - v) -> has_takum Linear n (x + y - v).
Proof.
  intros n x y v Sw N8 Hx Hy Hyx Hz C Hm. destruct (Req_dec (x + y - v) 0) as [Z0|Nd]; [rewrite Z0; apply has_takum_0; assumption|]. destruct Hm as [?|Hm]; [contradiction|].
  pose proof (bpow_gt_0 radix2 (-254)) as P254.
  destruct (Req_dec y 0) as [Ey|Ny]. { exfalso. subst y. rewrite Rplus_0_r in *. rewrite (closest_self _ _ _ C Hx) in Nd. lra. }
  assert (x <> 0) as Nx by (intros ->; rewrite Rabs_R0 in Hyx; pose proof (Rabs_pos_lt y Ny); lra).
  destruct (takum_multiple n x Sw N8 Hx Nx) as (hx & Bx & Rx & Mx). destruct (takum_multiple n y Sw N8 Hy Ny) as (hy & By & Ry & My).
  assert (hy <= hx)%Z by (assert (hy < hx + 1)%Z; [|lia]; apply (lt_bpow radix2); lra).
  pose proof (ulpe_mono n hy hx ltac:(lia) ltac:(lia)) as U.
  destruct (Mx (ulpe n hy) U) as (Kx & Ex). destruct (My (ulpe n hy) ltac:(lia)) as (Ky & Ey).
  assert (x + y = IZR (Kx + Ky) * bpow radix2 (ulpe n hy)) as Ezq by (rewrite plus_IZR, Rmult_plus_distr_r, <- Ex, <- Ey; ring).
  assert (Rabs (x + y) = x + y) as Az by (apply Rabs_pos_eq; lra).
  destruct (lin_exponent (x + y)) as (h & He & Hh); [rewrite Az; assumption|]. simpl in He. rewrite Az in He.
  assert (bpow radix2 h <= x + y < bpow radix2 (h + 1)) as He' by (rewrite <- !powerRZ_bpow; exact He).
  destruct (Z_lt_le_dec h hy) as [Hlt|Hge].
  { exfalso. apply Nd. rewrite (closest_self _ _ _ C); [ring|]. apply (multiple_rep n _ (Kx + Ky) (ulpe n hy) h hy); try assumption; [rewrite Az; assumption|lia|lia|].
    rewrite Az. assert (bpow radix2 (-255) < bpow radix2 (-254)) by (apply bpow_lt; lia). lra. }
  pose proof (closest_ge _ _ _ _ C (bpow_takum n h Sw N8 ltac:(lia)) ltac:(lra)) as Gv. pose proof (bpow_gt_0 radix2 h).
  destruct C as [Hv C]. destruct (takum_multiple n v Sw N8 Hv ltac:(lra)) as (hv & Bv & Rv & Mv). rewrite (Rabs_pos_eq v) in Bv by lra.
  assert (h <= hv)%Z by (assert (h < hv + 1)%Z; [|lia]; apply (lt_bpow radix2); lra).
  pose proof (ulpe_mono n hy hv ltac:(lia) ltac:(lia)) as U2. destruct (Mv (ulpe n hy) U2) as (Kv & Ev).
  destruct (exponent_exists (x + y - v) Nd) as (e & Be).
  pose proof (C x Hx) as Cx. replace (x - (x + y)) with (- y) in Cx by ring. rewrite Rabs_Ropp in Cx. rewrite Rabs_minus_sym in Cx.
  assert (e <= hy)%Z by (assert (e < hy + 1)%Z; [|lia]; apply (lt_bpow radix2); lra).
  apply (multiple_rep n _ (Kx + Ky - Kv) (ulpe n hy) e hy); try assumption; try lia.
  rewrite minus_IZR, Rmult_minus_distr_r, <- Ezq, <- Ev. reflexivity.
Qed.
Lemma error_rep : forall n x y v, std_width n -> n <> 8%Z -> has_takum Linear n x -> has_takum Linear n y -> bpow radix2 (-254) <= Rabs (x + y) < bpow radix2 254 ->
  closest n (x + y) v -> x + y - v = 0 \/ bpow radix2 (-255) < Rabs (x + y - v) -> has_takum Linear n (x + y - v).
Proof.
  assert (forall n x y v, std_width n -> n <> 8%Z -> has_takum Linear n x -> has_takum Linear n y -> bpow radix2 (-254) <= x + y < bpow radix2 254 ->
    closest n (x + y) v -> x + y - v = 0 \/ bpow radix2 (-255) < Rabs (x + y - v) -> has_takum Linear n (x + y - v)) as Pos.
  { intros n x y v Sw N8 Hx Hy Hz C Hm. destruct (Rle_or_lt (Rabs y) (Rabs x)); [apply error_rep_pos; assumption|]. rewrite (Rplus_comm x y) in *. apply error_rep_pos; try assumption; lra. }
  intros n x y v Sw N8 Hx Hy Hz C Hm. destruct (Rle_or_lt 0 (x + y)) as [P|P].
  - rewrite Rabs_pos_eq in Hz by assumption. apply Pos; assumption.
  - rewrite Rabs_left in Hz by assumption. replace (x + y - v) with (- (- x + - y - - v)) by ring. apply has_takum_opp; [assumption|].
    apply Pos; try assumption; try (apply has_takum_opp; assumption); [lra| |].
    + replace (- x + - y) with (- (x + y)) by ring. apply closest_opp; assumption.
    + replace (- x + - y - - v) with (- (x + y - v)) by ring. rewrite Rabs_Ropp. destruct Hm as [Hm|Hm]; [left; lra|right; assumption].
Qed.

(** * Fast2Sum *)
Lemma not_half : forall n x z v, std_width n -> n <> 8%Z -> has_takum Linear n x -> closest n z v -> 0 < x -> bpow radix2 (-254) <= z < bpow radix2 254 -> v < x / 2 -> z <= x / 2.
Proof.
  intros n x z v Sw N8 Hx C Px Hz Lv. apply Rnot_lt_le. intro Lz. pose proof (bpow_gt_0 radix2 (-254)).
  assert (bpow radix2 (-254) <= v) as Gv by (apply (closest_ge n z); [assumption|apply bpow_takum; (assumption || lia)|lra]).
  destruct (takum_multiple n x Sw N8 Hx ltac:(lra)) as (hx & Bx & Rx & Mx). rewrite Rabs_pos_eq in Bx by lra.
  pose proof (bpow_plus radix2 (hx - 1) 1) as B1. replace (hx - 1 + 1)%Z with hx in B1 by lia. pose proof (bpow_plus radix2 hx 1) as B2. change (bpow radix2 1) with 2 in B1, B2.
  pose proof (bpow_gt_0 radix2 (hx - 1)).
  assert (bpow radix2 (-253) = bpow radix2 (-254) * 2) as B3 by (change (-253)%Z with (-254 + 1)%Z; apply bpow_plus).
  assert (-254 < hx)%Z by (assert (-253 < hx + 1)%Z; [|lia]; apply (lt_bpow radix2); lra).
  assert (z < bpow radix2 hx) as Hzx.
  { apply Rnot_le_lt. intro K. assert (hx < 254)%Z by (apply (lt_bpow radix2); lra).
    pose proof (closest_ge _ _ _ _ C (bpow_takum n hx Sw N8 ltac:(lia)) K). lra. }
  assert (bpow radix2 (hx - 1) <= v) as Gv1 by (apply (closest_ge n z); [assumption|apply bpow_takum; (assumption || lia)|lra]).
  pose proof C as [Hv C']. destruct (takum_multiple n v Sw N8 Hv ltac:(lra)) as (hv & Bv & Rv & Mv). rewrite Rabs_pos_eq in Bv by lra.
  assert (hv = hx - 1)%Z as -> by (assert (hv < hx)%Z by (apply (lt_bpow radix2); lra); assert (hx - 1 < hv + 1)%Z by (apply (lt_bpow radix2); lra); lia).
  pose proof (ulpe_mono n (hx - 1) hx ltac:(lia) ltac:(lia)) as U. set (q := ulpe n (hx - 1)) in *. destruct (Mx q U) as (Kx & Ex). destruct (Mv q ltac:(lia)) as (Kv & Ev).
  pose proof (bpow_gt_0 radix2 q) as Pq.
  assert (2 * Kv < Kx)%Z as K1 by (apply lt_IZR; rewrite mult_IZR; apply (Rmult_lt_reg_r (bpow radix2 q)); [assumption|]; rewrite Rmult_assoc, <- Ev, <- Ex; lra).
  assert (2 * v + bpow radix2 q <= x) as K2. { rewrite Ev, Ex. replace (2 * (IZR Kv * bpow radix2 q) + bpow radix2 q) with (IZR (2 * Kv + 1) * bpow radix2 q) by (rewrite plus_IZR, mult_IZR; ring). apply Rmult_le_compat_r; [lra|]. apply IZR_le. lia. }
  assert (has_takum Linear n (v + bpow radix2 q)) as Hw.
  { assert (v + bpow radix2 q <= bpow radix2 hx) as K3.
    { assert (0 <= hx - q)%Z as Q by (unfold q, ulpe; destruct (regc_bound (hx - 1) ltac:(lia)); unfold std_width in Sw; lia).
      assert (bpow radix2 hx = IZR (2 ^ (hx - q)) * bpow radix2 q) as E2 by (rewrite IZR_pow2, <- bpow_plus by assumption; f_equal; lia).
      assert (Kv + 1 <= 2 ^ (hx - q))%Z as K4.
      { assert (2 * Kv + 1 < 2 * 2 ^ (hx - q))%Z; [|lia]. apply lt_IZR. rewrite plus_IZR, !mult_IZR. apply (Rmult_lt_reg_r (bpow radix2 q)); [assumption|].
        rewrite Rmult_plus_distr_r, !Rmult_assoc, <- E2, <- Ev. lra. }
      rewrite E2, Ev. apply IZR_le in K4. rewrite plus_IZR in K4. apply (Rmult_le_compat_r (bpow radix2 q)) in K4; lra. }
    destruct (Rle_lt_or_eq_dec _ _ K3) as [K4|K4]; [|rewrite K4; apply bpow_takum; (assumption || lia)].
    apply (multiple_rep n _ (Kv + 1) q (hx - 1) (hx - 1)); try assumption; try lia.
    - rewrite plus_IZR, Rmult_plus_distr_r, <- Ev. ring.
    - replace (hx - 1 + 1)%Z with hx by lia. rewrite Rabs_pos_eq by lra. lra.
    - rewrite Rabs_pos_eq by lra. assert (bpow radix2 (-255) < bpow radix2 (-254)) by (apply bpow_lt; lia). lra. }
  specialize (C' _ Hw). rewrite (Rabs_left (v - z)) in C' by lra. destruct (Rle_or_lt z (v + bpow radix2 q)); [rewrite Rabs_pos_eq in C' by lra|rewrite Rabs_left in C' by lra]; lra.
Qed.
Definition low (n : Z) : Z := ulpe n (-200).
Lemma low_bound : forall n, n = 16%Z \/ n = 32%Z -> (-230 <= low n)%Z.
Proof. intros n [-> | ->]; vm_compute; discriminate. Qed.
Lemma low_multiple : forall n x, std_width n -> n <> 8%Z -> has_takum Linear n x -> bpow radix2 (-200) <= Rabs x -> exists K, x = IZR K * bpow radix2 (low n).
Proof.
  intros n x Sw N8 Hx L. assert (x <> 0) as Nx by (intros ->; rewrite Rabs_R0 in L; pose proof (bpow_gt_0 radix2 (-200)); lra).
  destruct (takum_multiple n x Sw N8 Hx Nx) as (h & B & R & M). apply M. assert (-200 < h + 1)%Z by (apply (lt_bpow radix2); lra). apply ulpe_mono; lia.
Qed.
Lemma multiple_big : forall n x K, n = 16%Z \/ n = 32%Z -> x = IZR K * bpow radix2 (low n) -> x = 0 \/ bpow radix2 (-230) <= Rabs x.
Proof.
  intros n x K Hn ->. destruct (Z.eq_dec K 0) as [->|N]; [left; ring|right]. rewrite Rabs_mult, <- abs_IZR, (Rabs_pos_eq (bpow _ _)) by apply bpow_ge_0.
  assert (bpow radix2 (-230) <= bpow radix2 (low n)) by (apply bpow_le, low_bound; assumption). assert (1 <= IZR (Z.abs K)) as A by (apply IZR_le; lia).
  pose proof (bpow_gt_0 radix2 (low n)). apply (Rmult_le_compat_r (bpow radix2 (low n))) in A; lra.
Qed.
Lemma low_takum : forall n x K, n = 16%Z \/ n = 32%Z -> x = IZR K * bpow radix2 (low n) -> Rabs x < bpow radix2 (-199) -> has_takum Linear n x.
Proof.
  intros n x K Hn Ex L. assert (std_width n) as Sw by (unfold std_width; tauto). destruct (multiple_big n x K Hn Ex) as [Z0|B]; [rewrite Z0; apply has_takum_0; assumption|].
  assert (bpow radix2 (-255) < bpow radix2 (-230)) by (apply bpow_lt; lia).
  assert (x <> 0) as Nx by (intros ->; rewrite Rabs_R0 in B; pose proof (bpow_gt_0 radix2 (-230)); lra). destruct (exponent_exists x Nx) as (e & Be).
  apply (multiple_rep n x K (low n) e (-200)); try assumption; try lia; try lra; try (unfold low; lia).
  assert (e < -199)%Z by (apply (lt_bpow radix2); lra). lia.
Qed.
Lemma sum_bounds : forall x y, Rabs x < bpow radix2 253 -> Rabs y < bpow radix2 253 -> Rabs (x + y) < bpow radix2 254.
Proof. intros x y Hx Hy. pose proof (Rabs_triang x y). assert (bpow radix2 254 = bpow radix2 253 * 2) as -> by (change 254%Z with (253 + 1)%Z; apply bpow_plus). lra. Qed.
Lemma round_closest : forall n x y t, n = 16%Z \/ n = 32%Z -> has_takum Linear n x -> has_takum Linear n y -> bpow radix2 (-200) <= Rabs x < bpow radix2 253 -> bpow radix2 (-200) <= Rabs y < bpow radix2 253 ->
  rounds Linear n (x + y) t -> exists v, value Linear n t = Some v /\ closest n (x + y) v /\ exists K, v = IZR K * bpow radix2 (low n).
Proof.
  intros n x y t Hn Hx Hy Bx By H. assert (std_width n) as Sw by (unfold std_width; tauto). assert (n <> 8%Z) as N8 by lia.
  destruct (low_multiple n x Sw N8 Hx ltac:(lra)) as (Kx & Ex). destruct (low_multiple n y Sw N8 Hy ltac:(lra)) as (Ky & Ey).
  assert (x + y = IZR (Kx + Ky) * bpow radix2 (low n)) as Ez by (rewrite plus_IZR, Rmult_plus_distr_r, <- Ex, <- Ey; reflexivity).
  assert (exists v, value Linear n t = Some v /\ closest n (x + y) v) as (v & V & C).
  { destruct (multiple_big n _ _ Hn Ez) as [Z0|B].
    - rewrite Z0 in *. destruct H as [[_ ->]|[? _]]; [|contradiction]. exists 0. split; [apply value_0|]. split; [apply has_takum_0; assumption|]. intros w _. unfold Rminus. rewrite Rplus_opp_r, Rabs_R0. apply Rabs_pos.
    - apply (nearest_closest n _ t Sw N8 H). split; [|apply sum_bounds; lra]. assert (bpow radix2 (-254) <= bpow radix2 (-230)) by (apply bpow_le; lia). lra. }
  exists v. split; [assumption|]. split; [assumption|].
  destruct (Rlt_or_le (Rabs (x + y)) (bpow radix2 (-199))) as [K|K].
  - exists (Kx + Ky)%Z. rewrite <- Ez. apply (closest_self n); [assumption|]. apply (low_takum n _ (Kx + Ky)); assumption.
  - apply low_multiple; try assumption; [apply C|].
    assert (bpow radix2 (-200) <= bpow radix2 (-199)) by (apply bpow_le; lia). pose proof (bpow_takum n (-200) Sw N8 ltac:(lia)) as T.
    destruct (Rle_or_lt 0 (x + y)) as [P|P].
    + rewrite Rabs_pos_eq in K by assumption. pose proof (closest_ge _ _ _ _ C T ltac:(lra)). pose proof (Rle_abs v). lra.
    + rewrite Rabs_left in K by assumption. pose proof (closest_le _ _ _ _ C (has_takum_opp _ _ _ Sw T) ltac:(lra)). pose proof (Rle_abs (- v)) as A. rewrite Rabs_Ropp in A. lra.
Qed.
Lemma fast_pos : forall n x y v, n = 16%Z \/ n = 32%Z -> has_takum Linear n x -> has_takum Linear n y -> bpow radix2 (-200) <= Rabs y -> Rabs y <= x -> x < bpow radix2 253 ->
  closest n (x + y) v -> (exists K, v = IZR K * bpow radix2 (low n)) -> Rabs v <= 2 * x -> has_takum Linear n (v - x).
Proof.
  intros n x y v Hn Hx Hy By Hyx Bx C (Kv & Ev) Hv. assert (std_width n) as Sw by (unfold std_width; tauto). assert (n <> 8%Z) as N8 by lia.
  pose proof (bpow_gt_0 radix2 (-200)). assert (Rabs x = x) as Ax by (apply Rabs_pos_eq; lra).
  destruct (low_multiple n x Sw N8 Hx ltac:(lra)) as (Kx & Ex). destruct (low_multiple n y Sw N8 Hy By) as (Ky & Ey).
  assert (x + y = IZR (Kx + Ky) * bpow radix2 (low n)) as Ez by (rewrite plus_IZR, Rmult_plus_distr_r, <- Ex, <- Ey; reflexivity).
  assert (v - x = IZR (Kv - Kx) * bpow radix2 (low n)) as Ed by (rewrite minus_IZR, Rmult_minus_distr_r, <- Ex, <- Ev; reflexivity).
  assert (bpow radix2 (-254) <= bpow radix2 (-230)) as B1 by (apply bpow_le; lia). assert (bpow radix2 (-255) < bpow radix2 (-230)) as B2 by (apply bpow_lt; lia).
  pose proof (Rle_abs v) as A1. pose proof (Rle_abs (- y)) as A2. rewrite Rabs_Ropp in A2.
  assert (has_takum Linear n (x + y) -> has_takum Linear n (v - x)) as Exact.
  { intro T. rewrite (closest_self _ _ _ C T). replace (x + y - x) with y by ring. assumption. }
  destruct (multiple_big n _ _ Hn Ez) as [Z0|Bz]; [apply Exact; rewrite Z0; apply has_takum_0; assumption|]. rewrite Rabs_pos_eq in Bz by lra.
  pose proof Hx as (a & Ia & Va). pose proof (proj1 C) as (s & Is & Vs).
  destruct (Rlt_or_le v (x / 2)) as [L|L].
  - pose proof (not_half n x (x + y) v Sw N8 Hx C ltac:(lra)) as NH. assert (x + y <= x / 2) as Hl. { apply NH; [|assumption]. split; [lra|]. pose proof (sum_bounds x y ltac:(lra) ltac:(lra)) as SB. rewrite Rabs_pos_eq in SB by lra. assumption. }
    apply Exact. destruct (has_takum_opp _ _ _ Sw Hy) as (b & Ib & Vb). replace (x + y) with (x - - y) by ring. apply (difference_signed n a b); try assumption; [left; lra|].
    right. replace (x - - y) with (x + y) by ring. rewrite Rabs_pos_eq by lra. lra.
  - apply (difference_signed n s a); try assumption; [left; lra|]. destruct (multiple_big n _ _ Hn Ed) as [Z0|Bd]; [left; assumption|right; lra].
Qed.
Lemma fast_rep : forall n x y v, n = 16%Z \/ n = 32%Z -> has_takum Linear n x -> has_takum Linear n y -> bpow radix2 (-200) <= Rabs y -> Rabs y <= Rabs x -> Rabs x < bpow radix2 253 ->
  closest n (x + y) v -> (exists K, v = IZR K * bpow radix2 (low n)) -> Rabs v <= 2 * Rabs x -> has_takum Linear n (v - x).
Proof.
  intros n x y v Hn Hx Hy By Hyx Bx C (Kv & Ev) Hv. assert (std_width n) as Sw by (unfold std_width; tauto). destruct (Rle_or_lt 0 x) as [P|P].
  - rewrite (Rabs_pos_eq x) in * by assumption. apply (fast_pos n x y v); try assumption. exists Kv. assumption.
  - rewrite (Rabs_left x) in * by assumption. replace (v - x) with (- (- v - - x)) by ring. apply has_takum_opp; [assumption|].
    apply (fast_pos n (- x) (- y) (- v)); try assumption; try (apply has_takum_opp; assumption); try (rewrite Rabs_Ropp; assumption); try lra.
    + replace (- x + - y) with (- (x + y)) by ring. apply closest_opp; assumption.
    + exists (- Kv)%Z. rewrite opp_IZR, Ev. ring.
Qed.
Theorem sum_error_takum : forall n f a b x y, linear_addition n f -> n = 16%Z \/ n = 32%Z -> is_intn n a -> is_intn n b -> value Linear n a = Some x -> value Linear n b = Some y ->
  powerRZ 2 (-200) <= Rabs x < powerRZ 2 253 -> powerRZ 2 (-200) <= Rabs y < powerRZ 2 253 ->
  exists s v e, f a b = Val s /\ value Linear n s = Some v /\ is_intn n e /\ value Linear n e = Some (x + y - v).
Proof.
  intros n f a b x y Hf Hn Ia Ib Vx Vy Bx By. rewrite !powerRZ_bpow in *. assert (std_width n) as Sw by (unfold std_width; tauto).
  destruct (add_lin_correct n f Hf ltac:(lia) a b Ia Ib) as (s & F & Is & R). rewrite Vx, Vy in R.
  assert (has_takum Linear n x) as Hx by (exists a; split; assumption). assert (has_takum Linear n y) as Hy by (exists b; split; assumption).
  destruct (round_closest n x y s Hn Hx Hy Bx By R) as (v & V & C & Kv & Ev).
  assert (has_takum Linear n (x + y - v)) as (e & Ie & Ve); [|exists s, v, e; tauto].
  destruct (low_multiple n x Sw ltac:(lia) Hx ltac:(lra)) as (Kx & Ex). destruct (low_multiple n y Sw ltac:(lia) Hy ltac:(lra)) as (Ky & Ey).
  assert (x + y = IZR (Kx + Ky) * bpow radix2 (low n)) as Ez by (rewrite plus_IZR, Rmult_plus_distr_r, <- Ex, <- Ey; reflexivity).
  assert (x + y - v = IZR (Kx + Ky - Kv) * bpow radix2 (low n)) as Ed by (rewrite minus_IZR, Rmult_minus_distr_r, <- Ez, <- Ev; reflexivity).
  destruct (multiple_big n _ _ Hn Ez) as [Z0|Bz].
  { rewrite (closest_self _ _ _ C) by (rewrite Z0; apply has_takum_0; assumption). unfold Rminus. rewrite Rplus_opp_r. apply has_takum_0. assumption. }
  assert (bpow radix2 (-254) <= bpow radix2 (-230)) by (apply bpow_le; lia). assert (bpow radix2 (-255) < bpow radix2 (-230)) by (apply bpow_lt; lia).
  apply error_rep; try assumption; [lia|split; [lra|apply sum_bounds; lra]|]. destruct (multiple_big n _ _ Hn Ed) as [Zd|Bd]; [left; assumption|right; lra].
Qed.
Theorem fast_two_sum : forall n f g a b x y, linear_addition n f -> linear_subtraction n g -> n = 16%Z \/ n = 32%Z -> is_intn n a -> is_intn n b -> value Linear n a = Some x -> value Linear n b = Some y ->
  powerRZ 2 (-200) <= Rabs y <= Rabs x -> Rabs x < powerRZ 2 253 ->
  exists s v, f a b = Val s /\ value Linear n s = Some v /\
    (Rabs v <= 2 * Rabs x -> exists c e, g s a = Val c /\ g b c = Val e /\ value Linear n e = Some (x + y - v)).
Proof.
  intros n f g a b x y Hf Hg Hn Ia Ib Vx Vy By Bx. rewrite !powerRZ_bpow in *. assert (std_width n) as Sw by (unfold std_width; tauto).
  destruct (sum_error_takum n f a b x y Hf Hn Ia Ib Vx Vy) as (s & v & e & F & V & Ie & Ve); [rewrite !powerRZ_bpow; lra..|].
  exists s, v. split; [assumption|]. split; [assumption|]. intro Hv.
  destruct (add_lin_correct n f Hf ltac:(lia) a b Ia Ib) as (s' & F' & Is & R). rewrite Vx, Vy in R. assert (s' = s) as -> by congruence.
  assert (has_takum Linear n x) as Hx by (exists a; split; assumption). assert (has_takum Linear n y) as Hy by (exists b; split; assumption).
  destruct (round_closest n x y s Hn Hx Hy ltac:(lra) ltac:(lra) R) as (v' & V' & C & Kv). assert (v' = v) as -> by congruence.
  destruct (fast_rep n x y v Hn Hx Hy ltac:(lra) ltac:(lra) Bx C Kv Hv) as (c & Ic & Vc).
  exists c, e. split; [apply (sub_exact n g s a c v x); assumption|]. split; [|assumption].
  apply (sub_exact n g b c e y (v - x)); try assumption. replace (y - (v - x)) with (x + y - v) by ring. assumption.
Qed.

(** * Where the algorithm fails *)
Lemma fast_two_sum_fails : ~ (forall a b s c e x y v, is_intn 16 a -> is_intn 16 b -> value Linear 16 a = Some x -> value Linear 16 b = Some y ->
  Rabs y <= Rabs x -> 1 <= Rabs x <= 2 ->
  takum_linear_addition x86_64 W16 a b = Val s -> value Linear 16 s = Some v ->
  takum_linear_subtraction x86_64 W16 s a = Val c -> takum_linear_subtraction x86_64 W16 b c = Val e ->
  value Linear 16 e = Some (x + y - v)).
Proof.
  intro H. assert (value Linear 16 0x47ff = Some (2 - / 2048)) as Vx.
  { rewrite value_const by (split; vm_compute; (discriminate || reflexivity)). change (vm 16 0x47ff) with (4095 * 2 ^ 48)%Z. change (ve 16 0x47ff) with (-59)%Z.
    rewrite mult_IZR, IZR_pow2, Rmult_assoc, <- bpow_plus by lia. change (bpow radix2 (48 + -59)) with (/ 2048). f_equal. lra. }
  assert (value Linear 16 0x4c00 = Some 4) as Vs.
  { rewrite value_const by (split; vm_compute; (discriminate || reflexivity)). change (vm 16 0x4c00) with (2 ^ 59)%Z. change (ve 16 0x4c00) with (-57)%Z.
    rewrite IZR_pow2, <- bpow_plus by lia. reflexivity. }
  assert (value Linear 16 0x2400 = Some (/ 2048)) as Ve.
  { rewrite value_const by (split; vm_compute; (discriminate || reflexivity)). change (vm 16 0x2400) with (2 ^ 59)%Z. change (ve 16 0x2400) with (-70)%Z.
    rewrite IZR_pow2, <- bpow_plus by lia. reflexivity. }
  assert (is_intn 16 0x47ff) as I by (split; vm_compute; (discriminate || reflexivity)).
  specialize (H 0x47ff%Z 0x47ff%Z 0x4c00%Z 0x4800%Z (- 0x2400)%Z (2 - / 2048) (2 - / 2048) 4 I I Vx Vx (Rle_refl _)). rewrite Rabs_pos_eq in H by lra.
  specialize (H ltac:(lra) ltac:(vm_compute; reflexivity) Vs ltac:(vm_compute; reflexivity) ltac:(vm_compute; reflexivity)).
  destruct (negation_negates Linear 16 0x2400 ltac:(unfold std_width; tauto) ltac:(split; vm_compute; (discriminate || reflexivity)) ltac:(vm_compute; discriminate)) as (_ & _ & w & W1 & W2).
  rewrite Ve in W1. assert (Some (- / 2048) = Some (2 - / 2048 + (2 - / 2048) - 4)) as K.
  { rewrite <- H. assert (w = / 2048) as Ew by congruence. rewrite <- Ew, <- W2. f_equal. }
  injection K as K. lra.
Qed.
