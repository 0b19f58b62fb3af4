(** Proofs of the properties of conversions between linear takums and floats. *)
From Coq Require Import ZArith Reals Bool Lia Lra List.
From Flocq Require Import Core.Core IEEE754.BinarySingleNaN.
From Verif Require Import CModel FloatModel WidthConv Codec Spec FloatSpec CodeFacts SpecFacts ValueFacts RoundFacts
  WidthFacts WidthProps FloatFacts DecodeFacts EncodeFacts PhiFacts Codec8Facts Machine Libm Conversion LinApi LinFacts
  LinDec LogProps MiscProps.
Local Open Scope R_scope.

Lemma from_std : forall n F g, linear_from_float n F g -> std_width n.
Proof. intros n F g []; unfold std_width; auto. Qed.
Lemma to_std : forall n F h, linear_to_float n F h -> std_width n.
Proof. intros n F g []; unfold std_width; auto. Qed.

(** ** To floats *)
Lemma ieee_exact : forall F x (y : flt F), ieee_rounds x y -> FF F x -> Rabs x < bpow radix2 (femax F) ->
  isf y x /\ Bsign y = Rlt_bool x 0.
Proof.
  intros F x y H HF Hb. unfold ieee_rounds in H. rewrite round_to_RF, (RF_id F x HF), Rlt_bool_true in H by assumption.
  destruct H as (H1 & H2 & H3). repeat split; assumption.
Qed.

Lemma isf_float_is : forall F (y : flt F) x, isf y x -> x <> 0 -> float_is x y.
Proof. intros F y x [H1 H2] Hx. split; [assumption|]. split; [assumption|]. contradiction. Qed.

Definition exact_pair (n : Z) (F : fmt) : Prop := F = f80 \/ (F = f64 /\ n <> 64%Z).

Lemma lin_to_exact : forall n F h t, linear_to_float n F h -> exact_pair n F -> is_intn n t ->
  exists y, h t = Val y /\ match value Linear n t with Some x => float_is x y | None => y = B754_nan end.
Proof.
  intros n F h t H HE It. pose proof (std_range n (to_std _ _ _ H)) as Hn.
  destruct (takum_cases n t It) as [->|[->|Hr]].
  - rewrite (linear_to_0 _ _ _ H), value_0. eexists; split; [reflexivity|]. split; [reflexivity|]. split; reflexivity.
  - rewrite (linear_to_nar _ _ _ H), value_nar by lia. eexists; split; reflexivity.
  - destruct (linear_to_real _ _ _ _ H Hr) as (y & E & Hy). exists y. split; [assumption|].
    rewrite lin_value by (assumption || lia). fold (lv n t).
    apply isf_float_is; [|apply lv_neq0; (assumption || lia)].
    destruct HE as [->|[-> Hn64]]; cbn [to_res] in Hy; [assumption|].
    apply ieee_exact; [assumption| |].
    + apply FF_lin_value; [lia|discriminate| |assumption]. simpl. destruct H; simpl in *; lia.
    + eapply Rle_lt_trans; [apply lin_value_bound; (assumption || lia)|]. apply bpow_lt. reflexivity.
Qed.

Lemma isf_ieee : forall F (y : flt F) x, isf y x -> x <> 0 -> ieee_rounds x y.
Proof.
  intros F y x Hy Hx. pose proof (isf_FF _ _ _ Hy) as HF. pose proof (isf_lt _ _ _ Hy) as Hlt.
  unfold ieee_rounds. rewrite round_to_RF, RF_id, Rlt_bool_true by assumption.
  destruct Hy as [H1 H2]. split; [assumption|]. split; [assumption|].
  destruct y as [s|s| |s m e He]; try discriminate; [simpl in H2; congruence|].
  rewrite <- H2. cbn [Bsign B2R]. destruct s.
  - rewrite Rlt_bool_true; [reflexivity|]. apply F2R_lt_0. reflexivity.
  - rewrite Rlt_bool_false; [reflexivity|]. apply F2R_ge_0. discriminate.
Qed.

Lemma lin_to_rounded : forall n F h t, linear_to_float n F h -> ~ (n = 64%Z /\ F = f32) -> is_intn n t ->
  exists y, h t = Val y /\
    match value Linear n t with
    | Some x => if Req_bool x 0 then y = B754_zero false else ieee_rounds x y
    | None => y = B754_nan
    end.
Proof.
  intros n F h t H HE It. pose proof (std_range n (to_std _ _ _ H)) as Hn.
  destruct (takum_cases n t It) as [->|[->|Hr]].
  - rewrite (linear_to_0 _ _ _ H), value_0. eexists; split; [reflexivity|]. rewrite Req_bool_true; reflexivity.
  - rewrite (linear_to_nar _ _ _ H), value_nar by lia. eexists; split; reflexivity.
  - destruct (linear_to_real _ _ _ _ H Hr) as (y & E & Hy). exists y. split; [assumption|].
    rewrite lin_value by (assumption || lia). fold (lv n t).
    pose proof (lv_neq0 n t ltac:(lia) Hr) as Hnz.
    rewrite Req_bool_false by assumption.
    destruct F; cbn [to_res] in Hy; [|assumption|apply isf_ieee; assumption|contradiction].
    rewrite RF_id in Hy; [assumption|]. apply FF_lin_value; [lia|discriminate| |assumption].
    simpl. inversion H; subst; (lia || (exfalso; tauto)).
Qed.

(** takum_linear64_to_float32 rounds twice, through double *)
Lemma lin64_to_f32 : forall t x, is_real_takum 64 t -> value Linear 64 t = Some x ->
  exists y, takum_linear64_to_float32 x86_64 t = Val y /\ ieee_rounds (round_to f64 x) y.
Proof.
  intros t x Hr V. rewrite lin_value in V by (assumption || lia). injection V as <-.
  exact (linear_to_real 64 f32 _ t lin64_to_float32 Hr).
Qed.

(** ** From floats *)
Lemma rho_id_dyadic : forall n F g (f : flt F) x, linear_from_float n F g -> ~ (n = 16%Z /\ F = f80) -> isf f x -> x <> 0 ->
  exists k d, (0 <= d <= m_P (from_mach n))%Z /\ from_rho n F (lin_coord x) = IZR k * bpow radix2 (- d).
Proof.
  intros n F g f x H HE Hf Hx. destruct (lin_coord_dyadic _ _ _ Hf Hx) as [k Hk].
  assert (forall A B y j d, (0 <= d)%Z -> y = IZR j * bpow radix2 (- d) -> B = RF A y ->
            exists j', B = IZR j' * bpow radix2 (- d)) as key.
  { intros A B y j d Hd -> ->. unfold RF, round, F2R, scaled_mantissa. cbn [Fnum Defs.Fexp].
    set (y := IZR j * bpow radix2 (- d)). set (e := cexp radix2 (fexpo A) y).
    destruct (Z_le_gt_dec (- d) e) as [C|C].
    - exists (ZnearestE (y * bpow radix2 (- e)) * 2 ^ (e + d))%Z. rewrite mult_IZR, IZR_pow2, Rmult_assoc, <- bpow_plus by lia.
      f_equal. f_equal. lia.
    - assert (y * bpow radix2 (- e) = IZR (j * 2 ^ (- d - e))) as ->.
      { unfold y. rewrite mult_IZR, IZR_pow2, Rmult_assoc, <- bpow_plus by lia. f_equal. }
      rewrite (Zrnd_IZR ZnearestE). exists j. rewrite mult_IZR, IZR_pow2, Rmult_assoc, <- bpow_plus by lia. f_equal. f_equal. lia. }
  destruct (key f80 _ _ _ (fprec F - 1)%Z ltac:(pose proof (fmt_pos F); lia) Hk eq_refl) as [k8 Hk8].
  inversion H; subst; cbn [from_rho from_mach Z.eqb Pos.eqb m_P mach8 mach16 mach32 mach64].
  1: destruct (key f32 _ _ _ 23%Z ltac:(lia) Hk eq_refl) as [k' ->]; exists k', 23%Z; split; [lia|reflexivity].
  1: destruct (key f32 _ _ _ 23%Z ltac:(lia) Hk eq_refl) as [k' ->]; exists k', 23%Z; split; [lia|reflexivity].
  1,2: exists k, 23%Z; split; [lia|assumption].
  1: destruct (key f32 _ _ _ 52%Z ltac:(lia) Hk eq_refl) as [k' ->]; exists k', 52%Z; split; [lia|reflexivity].
  1: destruct (key f64 _ _ _ 52%Z ltac:(lia) Hk eq_refl) as [k' ->]; exists k', 52%Z; split; [lia|reflexivity].
  1,2: exists k, 52%Z; split; [lia|assumption].
  1: destruct (key f32 _ _ _ 63%Z ltac:(lia) Hk8 eq_refl) as [k' ->]; exists k', 63%Z; split; [lia|reflexivity].
  1: exfalso; tauto.
  1,2: exists k8, 63%Z; split; [lia|assumption].
Qed.

(** the result is the correct rounding of the rounded l *)
Lemma lin_from_nearest : forall n F g (f : flt F) x, linear_from_float n F g -> ~ (n = 16%Z /\ F = f80) -> isf f x -> x <> 0 ->
  g f = Val (asm n (Rlt_bool x 0) (enc n (sg (Rlt_bool x 0) * from_rho n F (lin_coord x)))).
Proof.
  intros n F g f x H HE Hf Hx. destruct (linear_from_form _ _ _ H) as (Hm & Hmn & Hrho & Hg & _).
  rewrite (Hg f x Hf Hx).
  assert (m_psi (from_mach n) (sg (Rlt_bool x 0) * from_rho n F (lin_coord x)) = sg (Rlt_bool x 0) * from_rho n F (lin_coord x)) as ->;
    [|reflexivity].
  destruct (rho_id_dyadic n F g f x H HE Hf Hx) as (k & d & Hd & ->).
  assert (exists k', sg (Rlt_bool x 0) * (IZR k * bpow radix2 (- d)) = IZR k' * bpow radix2 (- m_P (from_mach n))) as [k' ->].
  { exists ((if Rlt_bool x 0 then - k else k) * 2 ^ (m_P (from_mach n) - d))%Z.
    rewrite mult_IZR, IZR_pow2, Rmult_assoc, <- bpow_plus by lia.
    replace (m_P (from_mach n) - d + - m_P (from_mach n))%Z with (- d)%Z by lia.
    unfold sg. destruct (Rlt_bool x 0); [rewrite opp_IZR|]; ring. }
  apply (mo_psi_fix _ Hm).
Qed.

Lemma lin_from_correct : forall n F g (f : flt F), linear_from_float n F g -> (n = 32 \/ n = 64)%Z -> (F = f32 \/ F = f64) ->
  is_finite f = true -> exists t, g f = Val t /\ is_intn n t /\ rounds Linear n (B2R f) t.
Proof.
  intros n F g f H Hn HF Hfin. pose proof (std_range n (from_std _ _ _ H)) as Hr.
  destruct (Req_dec (B2R f) 0) as [E|E].
  - exists 0%Z. destruct f as [s|s| |s m e He]; try discriminate.
    + destruct (linear_from_form _ _ _ H) as (_ & _ & _ & _ & Hz & _). rewrite Hz.
      split; [reflexivity|]. split; [unfold is_intn; destruct Hn as [-> | ->]; lia|]. left. auto.
    + exfalso. cbn in E. apply eq_0_F2R in E. destruct s; discriminate.
  - assert (isf f (B2R f)) as Hf by (split; auto).
    rewrite (lin_from_nearest _ _ _ _ _ H ltac:(lia) Hf E).
    assert (from_rho n F (lin_coord (B2R f)) = lin_coord (B2R f)) as ->.
    { destruct Hn as [-> | ->], HF as [-> | ->]; reflexivity. }
    eexists; split; [reflexivity|]. split; [apply asm_enc_intn; lia|].
    right. split; [assumption|]. apply enc_nearest_sg. lia.
Qed.

Lemma lin_from_specials : forall n F g (f : flt F), linear_from_float n F g ->
  exists t, g f = Val t /\ is_intn n t /\
    (t = 0%Z <-> exists s, f = B754_zero s) /\ (t = nar n <-> is_finite f = false) /\
    (is_finite f = true -> ((t < 0)%Z <-> B2R f < 0) /\ ((0 < t)%Z <-> 0 < B2R f)).
Proof.
  intros n F g f H. pose proof (std_range n (from_std _ _ _ H)) as Hr.
  destruct (linear_from_form _ _ _ H) as (Hm & Hmn & Hrho & Hg & Hz & Hi & Hna).
  assert (0 < 2 ^ (n - 1))%Z as P by (apply Z.pow_pos_nonneg; lia).
  assert (is_intn n 0) by (unfold is_intn; lia). assert (is_intn n (nar n)) by (unfold is_intn, nar; lia).
  destruct f as [s|s| |s m e He].
  - exists 0%Z. rewrite Hz. split; [reflexivity|]. split; [assumption|].
    split; [split; [exists s; reflexivity|reflexivity]|].
    split; [split; [unfold nar; lia|discriminate]|]. cbn [B2R]. intros _. split; split; (lia || lra).
  - exists (nar n). rewrite Hi. split; [reflexivity|]. split; [assumption|].
    split; [split; [unfold nar; lia|intros [? [=]]]|]. split; [split; reflexivity|discriminate].
  - exists (nar n). rewrite Hna. split; [reflexivity|]. split; [assumption|].
    split; [split; [unfold nar; lia|intros [? [=]]]|]. split; [split; reflexivity|discriminate].
  - set (f := B754_finite s m e He : flt F).
    assert (isf f (B2R f)) as Hf by (split; reflexivity).
    assert (B2R f <> 0) as Hx by (intros E; apply eq_0_F2R in E; destruct s; discriminate).
    rewrite (Hg f _ Hf Hx). eexists; split; [reflexivity|].
    pose proof (asm_enc_intn n (Rlt_bool (B2R f) 0) (m_psi (from_mach n) (sg (Rlt_bool (B2R f) 0) * from_rho n F (lin_coord (B2R f)))) ltac:(lia)) as (I & N0 & NN).
    split; [assumption|]. split; [split; [contradiction|intros [? [=]]]|].
    split; [split; [contradiction|discriminate]|]. intros _.
    pose proof (enc_range n ltac:(lia) (m_psi (from_mach n) (sg (Rlt_bool (B2R f) 0) * from_rho n F (lin_coord (B2R f))))) as B.
    unfold asm in *. destruct (Rlt_bool_spec (B2R f) 0); split; split; intros; (lra || lia).
Qed.

Lemma lin_from_faithful : forall n F g (f : flt F), linear_from_float n F g -> is_finite f = true ->
  exists t, g f = Val t /\ is_intn n t /\ rounds_faithfully Linear n (B2R f) t.
Proof.
  intros n F g f H Hfin. pose proof (std_range n (from_std _ _ _ H)) as Hr.
  destruct (linear_from_form _ _ _ H) as (Hm & Hmn & Hrho & Hg & Hz & _).
  destruct (Req_dec (B2R f) 0) as [E|E].
  - exists 0%Z. destruct f as [s|s| |s m e He]; try discriminate.
    + rewrite Hz. assert (0 < 2 ^ (n - 1))%Z by (apply Z.pow_pos_nonneg; lia).
      split; [reflexivity|]. split; [unfold is_intn; lia|]. left. auto.
    + exfalso. cbn in E. apply eq_0_F2R in E. destruct s; discriminate.
  - rewrite (Hg f (B2R f) (conj Hfin eq_refl) E). eexists; split; [reflexivity|].
    split; [apply asm_enc_intn; lia|]. right. split; [assumption|]. cbn [coord].
    pose proof (enc_faithful (from_mach n) Hm (from_rho n F) (Rlt_bool (B2R f) 0) (lin_coord (B2R f))) as K.
    rewrite Hmn in K. apply K; [apply (rho_mono _ _ Hrho)|apply (rho_fix _ _ Hrho)|].
    intros x. apply (rho_sg n); assumption.
Qed.

Lemma lin_from_mono : forall n F g (f1 f2 : flt F) t1 t2, linear_from_float n F g ->
  is_finite f1 = true -> is_finite f2 = true -> B2R f1 <= B2R f2 -> g f1 = Val t1 -> g f2 = Val t2 -> (t1 <= t2)%Z.
Proof.
  intros n F g f1 f2 t1 t2 H F1 F2 Hle E1 E2. pose proof (std_range n (from_std _ _ _ H)) as Hr.
  destruct (linear_from_form _ _ _ H) as (Hm & Hmn & Hrho & Hg & _).
  destruct (lin_from_specials n F g f1 H) as (t1' & E1' & _ & _ & _ & S1). rewrite E1 in E1'. injection E1' as <-.
  destruct (lin_from_specials n F g f2 H) as (t2' & E2' & _ & _ & _ & S2). rewrite E2 in E2'. injection E2' as <-.
  specialize (S1 F1). specialize (S2 F2).
  destruct (Rtotal_order (B2R f1) 0) as [C1|[C1|C1]].
  - destruct (Rlt_or_le (B2R f2) 0) as [C2|C2].
    + rewrite (Hg f1 _ (conj F1 eq_refl)) in E1 by lra. rewrite (Hg f2 _ (conj F2 eq_refl)) in E2 by lra.
      injection E1 as <-. injection E2 as <-. rewrite !Rlt_bool_true by assumption. unfold asm.
      enough (enc n (m_psi (from_mach n) (sg true * from_rho n F (lin_coord (B2R f1))))
              <= enc n (m_psi (from_mach n) (sg true * from_rho n F (lin_coord (B2R f2)))))%Z by lia.
      apply enc_mono; [lia|]. apply (mo_psi_mono _ Hm). unfold sg.
      enough (from_rho n F (lin_coord (B2R f2)) <= from_rho n F (lin_coord (B2R f1))) by lra.
      apply (rho_mono _ _ Hrho). rewrite <- (lin_coord_opp (B2R f2)), <- (lin_coord_opp (B2R f1)).
      apply (coord_le Linear). lra.
    + assert (t1 < 0)%Z by (apply S1; assumption).
      assert (~ (t2 < 0)%Z) by (intros K; apply S2 in K; lra). lia.
  - assert (~ (t1 < 0)%Z /\ ~ (0 < t1)%Z) by (split; intros K; apply S1 in K; lra).
    assert (~ (t2 < 0)%Z) by (intros K; apply S2 in K; lra). lia.
  - rewrite (Hg f1 _ (conj F1 eq_refl)) in E1 by lra. rewrite (Hg f2 _ (conj F2 eq_refl)) in E2 by lra.
    injection E1 as <-. injection E2 as <-. rewrite !Rlt_bool_false by lra. unfold asm.
    apply enc_mono; [lia|]. apply (mo_psi_mono _ Hm). unfold sg.
    enough (from_rho n F (lin_coord (B2R f1)) <= from_rho n F (lin_coord (B2R f2))) by lra.
    apply (rho_mono _ _ Hrho). apply (coord_le Linear). lra.
Qed.

Lemma lin_from_odd : forall n F g (f : flt F) t, linear_from_float n F g -> ~ (n = 16%Z /\ F = f80) -> is_finite f = true ->
  g f = Val t -> g (fneg f) = Val (- t)%Z.
Proof.
  intros n F g f t H HE Hfin E. pose proof (std_range n (from_std _ _ _ H)) as Hr.
  destruct (Req_dec (B2R f) 0) as [E0|E0].
  - destruct (linear_from_form _ _ _ H) as (_ & _ & _ & _ & Hz & _).
    destruct f as [s|s| |s m e He]; try discriminate.
    + rewrite Hz in E. injection E as <-. apply Hz.
    + exfalso. cbn in E0. apply eq_0_F2R in E0. destruct s; discriminate.
  - assert (isf f (B2R f)) as Hf by (split; auto).
    rewrite (lin_from_nearest _ _ _ _ _ H HE Hf E0) in E. injection E as <-.
    rewrite (lin_from_nearest _ _ _ _ _ H HE (isf_fneg _ _ Hf) ltac:(lra)). f_equal.
    rewrite lin_coord_opp. set (L := from_rho n F (lin_coord (B2R f))).
    assert (Rlt_bool (- B2R f) 0 = negb (Rlt_bool (B2R f) 0)) as ->.
    { destruct (Rlt_bool_spec (- B2R f) 0), (Rlt_bool_spec (B2R f) 0); try reflexivity; exfalso; lra. }
    rewrite sg_negb. replace (- sg (Rlt_bool (B2R f) 0) * L) with (- (sg (Rlt_bool (B2R f) 0) * L)) by ring.
    rewrite enc_opp by lia. unfold asm. destruct (Rlt_bool (B2R f) 0); cbn [negb]; lia.
Qed.

(** ** Round trips *)
Lemma lin_trip : forall n F g h t, linear_from_float n F g -> linear_to_float n F h -> exact_pair n F -> is_intn n t ->
  (let! y := h t in g y) = Val t.
Proof.
  intros n F g h t Hg Hh HE It. pose proof (std_range n (to_std _ _ _ Hh)) as Hn.
  destruct (linear_from_form _ _ _ Hg) as (Hm & Hmn & Hrho & Hf & Hz & Hi & Hna).
  destruct (takum_cases n t It) as [->|[->|Hr]].
  - rewrite (linear_to_0 _ _ _ Hh). apply Hz.
  - rewrite (linear_to_nar _ _ _ Hh). exact Hna.
  - destruct (lin_to_exact n F h t Hh HE It) as (y & -> & Hy). cbn [bind].
    rewrite lin_value in Hy by (assumption || lia). fold (lv n t) in Hy. destruct Hy as (Y1 & Y2 & _).
    rewrite (Hf y (lv n t) (conj Y1 Y2) (lv_neq0 n t ltac:(lia) Hr)). f_equal.
    assert (Rlt_bool (lv n t) 0 = (t <? 0)%Z) as ->.
    { unfold lv. pose proof (Lin_pos (l_ n t)). unfold sg. destruct (t <? 0)%Z.
      - apply Rlt_bool_true. lra.
      - apply Rlt_bool_false. lra. }
    assert (lin_coord (lv n t) = l_ n t) as ->.
    { unfold lv, sg. destruct (t <? 0)%Z; [replace (-1 * Lin (l_ n t)) with (- Lin (l_ n t)) by ring; rewrite lin_coord_opp|rewrite Rmult_1_l];
        apply lin_coord_Lin. }
    pose proof (real_low_pos n t ltac:(lia) Hr) as Hlow.
    rewrite l_sg_cpm by (assumption || lia). rewrite (rho_sg n (from_rho n F) _ _ Hrho).
    rewrite (rho_fix _ _ Hrho) by assumption. rewrite <- Rmult_assoc, sg_sq, Rmult_1_l.
    assert (m_psi (from_mach n) (cpm n (low n t)) = cpm n (low n t)) as ->.
    { pose proof (mo_psi_grid _ Hm) as K. rewrite Hmn in K. apply K. lia. }
    rewrite enc_cpm by lia. apply asm_low; (assumption || lia).
Qed.

(** a float that is a linear takum is found *)
Lemma lin_from_grid : forall n F g (f : flt F) u, linear_from_float n F g -> is_finite f = true ->
  B2R f <> 0 -> (0 < u < 2 ^ (n - 1))%Z -> lin_coord (B2R f) = cpm n u ->
  exists t, g f = Val t /\ is_real_takum n t /\ value Linear n t = Some (B2R f).
Proof.
  intros n F g f u H Hfin Hx Hu HL. pose proof (std_range n (from_std _ _ _ H)) as Hn.
  destruct (linear_from_form _ _ _ H) as (Hm & Hmn & Hrho & Hg & _).
  rewrite (Hg f _ (conj Hfin eq_refl) Hx).
  set (s := Rlt_bool (B2R f) 0). set (w := if s then (2 ^ (n - 1) - u)%Z else u).
  assert (0 < w < 2 ^ (n - 1))%Z as Hw by (unfold w; destruct s; lia).
  assert (sg s * cpm n u = cpm n w) as Ew.
  { unfold w, sg. destruct s; [rewrite cpm_opp by lia|]; ring. }
  rewrite HL, <- (rho_sg n (from_rho n F) _ _ Hrho), Ew, (rho_fix _ _ Hrho) by assumption.
  assert (m_psi (from_mach n) (cpm n w) = cpm n w) as ->.
  { pose proof (mo_psi_grid _ Hm) as K. rewrite Hmn in K. apply K. lia. }
  rewrite enc_cpm by lia. eexists; split; [reflexivity|].
  assert (is_real_takum n (asm n s w)) as Hr by (apply asm_real; assumption). split; [assumption|].
  rewrite lin_value by (assumption || lia). rewrite l_sg_cpm by (assumption || lia).
  rewrite asm_neg, low_asm by lia. rewrite <- Ew, <- Rmult_assoc, sg_sq, Rmult_1_l, <- HL.
  rewrite Lin_lin_coord by assumption. f_equal. unfold s, sg. destruct (Rlt_bool_spec (B2R f) 0).
  - rewrite Rabs_left by assumption. ring.
  - rewrite Rabs_pos_eq by assumption. ring.
Qed.

Lemma lin_coord_strict : forall x b, (x <> 0) -> bpow radix2 (- b) < Rabs x < bpow radix2 b -> - IZR b < lin_coord x < IZR b.
Proof.
  intros x b Hx [H1 H2].
  assert (lin_coord (bpow radix2 (- b)) = - IZR b /\ lin_coord (bpow radix2 b) = IZR b) as [E1 E2].
  { assert (forall e, lin_coord (bpow radix2 e) = IZR e) as K.
    { intros e. rewrite <- (lin_coord_Lin (IZR e)). f_equal. unfold Lin. rewrite Zfloor_IZR. ring. }
    rewrite !K, opp_IZR. auto. }
  pose proof (Lin_lin_coord x Hx) as EL. split.
  - destruct (Rlt_or_le (- IZR b) (lin_coord x)) as [C|C]; [assumption|].
    destruct C as [C|C].
    + apply (E_lt Linear) in C. cbn [E] in C. rewrite EL, <- E1, Lin_lin_coord in C by apply Rgt_not_eq, bpow_gt_0.
      rewrite (Rabs_pos_eq (bpow radix2 _)) in C by apply bpow_ge_0. lra.
    + rewrite <- E1 in C. rewrite C, Lin_lin_coord in EL by apply Rgt_not_eq, bpow_gt_0.
      rewrite (Rabs_pos_eq (bpow radix2 _)) in EL by apply bpow_ge_0. lra.
  - destruct (Rlt_or_le (lin_coord x) (IZR b)) as [C|C]; [assumption|].
    destruct C as [C|C].
    + apply (E_lt Linear) in C. cbn [E] in C. rewrite EL, <- E2, Lin_lin_coord in C by apply Rgt_not_eq, bpow_gt_0.
      rewrite (Rabs_pos_eq (bpow radix2 _)) in C by apply bpow_ge_0. lra.
    + rewrite <- E2 in C. rewrite <- C, Lin_lin_coord in EL by apply Rgt_not_eq, bpow_gt_0.
      rewrite (Rabs_pos_eq (bpow radix2 _)) in EL by apply bpow_ge_0. lra.
Qed.

(** a float with enough digits left at its magnitude is a linear takum *)
Lemma lin_from_lossless : forall n F g (f : flt F), linear_from_float n F g -> is_finite f = true -> (12 <= n)%Z ->
  bpow radix2 (-255) < Rabs (B2R f) < bpow radix2 255 ->
  (fprec F - 1 <= n - 5 - regZ (DRof (Zfloor (lin_coord (B2R f)))))%Z ->
  exists t, g f = Val t /\ is_real_takum n t /\ value Linear n t = Some (B2R f).
Proof.
  intros n F g f H Hfin Hn12 HB HP. pose proof (std_range n (from_std _ _ _ H)) as Hn.
  assert (B2R f <> 0) as Hx.
  { intros E. rewrite E, Rabs_R0 in HB. pose proof (bpow_gt_0 radix2 (-255)). lra. }
  pose proof (lin_coord_strict (B2R f) 255 Hx HB) as HL.
  destruct (lin_coord_dyadic F f _ (conj Hfin eq_refl) Hx) as [k Hk].
  set (L := lin_coord (B2R f)) in *. set (p := (n - 5 - regZ (DRof (Zfloor L)))%Z) in *.
  destruct (on_grid n L (k * 2 ^ (p - (fprec F - 1)))%Z ltac:(lia) ltac:(lra)) as (u & Hu & Eu).
  { fold p. rewrite Hk, mult_IZR, IZR_pow2, Rmult_assoc, <- bpow_plus by lia. f_equal. f_equal. lia. }
  apply (lin_from_grid n F g f u H Hfin Hx); [|assumption].
  destruct (Z.eq_dec u 0) as [->|]; [|lia].
  exfalso. assert (cpm n 0 = -255); [|lra]. unfold cpm, Xn, code64. rewrite Z.mul_0_l.
  change (X 0) with (-255 * 2 ^ 59)%Z. rewrite mult_IZR. field. apply not_0_IZR. lia.
Qed.

Lemma ieee_self : forall F (f y : flt F), is_finite f = true -> B2R f <> 0 -> ieee_rounds (B2R f) y -> y = f.
Proof.
  intros F f y Hf Hx H. assert (isf f (B2R f)) as K by (split; auto).
  destruct (ieee_exact _ _ _ H (isf_FF _ _ _ K) (isf_lt _ _ _ K)) as [[Y1 Y2] Y3].
  pose proof (isf_ieee _ _ _ K Hx) as Hs.
  destruct (ieee_exact _ _ _ Hs (isf_FF _ _ _ K) (isf_lt _ _ _ K)) as [_ K3].
  apply B2R_Bsign_inj; congruence.
Qed.

Lemma lin_float_trip : forall n F g h (f : flt F), linear_from_float n F g -> linear_to_float n F h ->
  is_finite f = true -> (12 <= n)%Z -> bpow radix2 (-255) < Rabs (B2R f) < bpow radix2 255 ->
  (fprec F - 1 <= n - 5 - regZ (DRof (Zfloor (lin_coord (B2R f)))))%Z ->
  (let! t := g f in h t) = Val f.
Proof.
  intros n F g h f Hg Hh Hfin Hn HB HP.
  destruct (lin_from_lossless n F g f Hg Hfin Hn HB HP) as (t & -> & Hr & V). cbn [bind].
  pose proof (std_range n (from_std _ _ _ Hg)) as Hn'.
  destruct (linear_to_real n F h t Hh Hr) as (y & -> & Hy). f_equal.
  rewrite lin_value in V by (assumption || lia). injection V as V. fold (lv n t) in V.
  assert (B2R f <> 0) as Hx.
  { intros E. rewrite E, Rabs_R0 in HB. pose proof (bpow_gt_0 radix2 (-255)). lra. }
  assert (isf f (B2R f)) as K by (split; auto).
  apply ieee_self; [assumption|assumption|]. rewrite V in Hy.
  destruct F; cbn [to_res] in Hy; [|assumption|apply isf_ieee; assumption|contradiction].
  rewrite RF_id in Hy; [assumption|]. apply FF_sub with f32; [unfold fsub_fmt; simpl; lia|].
  eapply isf_FF. exact K.
Qed.

Lemma regZ_7 : forall c, (-255 <= c < 255)%Z -> (0 <= regZ (DRof c) <= 7)%Z.
Proof. intros c Hc. apply regZ_bounds. apply DRof_spec. assumption. Qed.
Lemma regZ_4 : forall c, (-31 <= c < 31)%Z -> (regZ (DRof c) <= 4)%Z.
Proof.
  intros c Hc. unfold DRof, regZ. pose proof (Z.log2_nonneg (- c)). destruct (Z.ltb_spec c 0).
  - assert (Z.log2 (- c) < 5)%Z by (apply Z.log2_lt_pow2; simpl; lia). destruct (Z.ltb_spec (7 - Z.log2 (- c)) 8); lia.
  - assert (Z.log2 (c + 1) < 5)%Z by (apply Z.log2_lt_pow2; simpl; lia).
    pose proof (Z.log2_nonneg (c + 1)). destruct (Z.ltb_spec (8 + Z.log2 (c + 1)) 8); lia.
Qed.

Lemma Zfloor_open : forall x a b, IZR a < x < IZR b -> (a <= Zfloor x < b)%Z.
Proof.
  intros x a b H. split; [apply Zfloor_lub; lra|].
  apply lt_IZR. pose proof (Zfloor_lb x). lra.
Qed.

Lemma lin64_trip : forall F g h (f : flt F), (F = f32 \/ F = f64) -> linear_from_float 64 F g -> linear_to_float 64 F h ->
  is_finite f = true -> bpow radix2 (-255) < Rabs (B2R f) < bpow radix2 255 ->
  (let! t := g f in h t) = Val f.
Proof.
  intros F g h f HF Hg Hh Hfin HB. apply (lin_float_trip 64 F); try assumption; try lia.
  assert (B2R f <> 0) as Hx.
  { intros E. rewrite E, Rabs_R0 in HB. pose proof (bpow_gt_0 radix2 (-255)). lra. }
  pose proof (lin_coord_strict (B2R f) 255 Hx HB) as HL.
  rewrite <- opp_IZR in HL. apply Zfloor_open in HL.
  pose proof (regZ_7 (Zfloor (lin_coord (B2R f))) ltac:(lia)). assert (fprec F <= 53)%Z by (destruct HF as [-> | ->]; simpl; lia). lia.
Qed.

(** every finite float survives linear takum64, also the subnormal ones *)
Lemma lin64_trip_f32 : forall g h (f : flt f32), linear_from_float 64 f32 g -> linear_to_float 64 f32 h ->
  is_finite f = true -> B2R f <> 0 -> (let! t := g f in h t) = Val f.
Proof.
  intros g h f Hg Hh Hfin Hx. apply (lin64_trip f32); auto.
  assert (isf f (B2R f)) as K by (split; auto). split.
  - destruct (FF_inv f32 _ (isf_FF _ _ _ K)) as (m & e & Hm & He & E). rewrite E.
    assert (m <> 0%Z) by (intros ->; apply Hx; rewrite E; ring).
    rewrite Rabs_mult, (Rabs_pos_eq (bpow radix2 e)), <- abs_IZR by apply bpow_ge_0.
    apply Rlt_le_trans with (1 * bpow radix2 e).
    + rewrite Rmult_1_l. apply bpow_lt. unfold femin in He. simpl in He. lia.
    + apply Rmult_le_compat_r; [apply bpow_ge_0|]. apply IZR_le. lia.
  - eapply Rlt_trans; [apply (isf_lt _ _ _ K)|]. apply bpow_lt. reflexivity.
Qed.

Lemma lin32_trip_f32 : forall g h (f : flt f32), linear_from_float 32 f32 g -> linear_to_float 32 f32 h ->
  is_finite f = true -> bpow radix2 (-31) < Rabs (B2R f) < bpow radix2 31 ->
  (let! t := g f in h t) = Val f.
Proof.
  intros g h f Hg Hh Hfin HB. apply (lin_float_trip 32 f32); try assumption; try lia.
  - assert (bpow radix2 (-255) <= bpow radix2 (-31)) by (apply bpow_le; lia).
    assert (bpow radix2 31 <= bpow radix2 255) by (apply bpow_le; lia). lra.
  - assert (B2R f <> 0) as Hx.
    { intros E. rewrite E, Rabs_R0 in HB. pose proof (bpow_gt_0 radix2 (-31)). lra. }
    pose proof (lin_coord_strict (B2R f) 31 Hx HB) as HL.
    rewrite <- opp_IZR in HL. apply Zfloor_open in HL.
    pose proof (regZ_4 (Zfloor (lin_coord (B2R f))) ltac:(lia)). assert (fprec f32 = 24)%Z by reflexivity. lia.
Qed.
