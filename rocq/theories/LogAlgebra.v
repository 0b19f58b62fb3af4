(** Addition and subtraction of logarithmic takums: algebra. *)
From Coq Require Import ZArith Reals Bool Lia Lra.
From Flocq Require Import Core.Core IEEE754.BinarySingleNaN Plus_error.
From Verif Require Import CModel FloatModel Libm LibmSpec Wrappers Conversion Codec Spec CodeFacts SpecFacts ValueFacts RoundFacts WidthFacts WidthApi WidthProps FloatFacts Machine NearFacts LibmIdeal WrapApi LogConv FloatSym.
Local Open Scope R_scope.

Lemma isf_inj : forall F (x y : flt F) a, isf x a -> isf y a -> a <> 0 -> x = y.
Proof.
  intros F x y a [Fx Vx] [Fy Vy] Na. apply B2R_inj; [| |congruence];
    (match goal with |- is_finite_strict ?z = true => destruct z as [s|s| |s m e H]; try discriminate; try reflexivity; simpl in *; lra end).
Qed.

(** ** The conversion to floats is odd and strictly increasing *)
Lemma log_to_neg : forall lm n F h t y, c99 lm -> log_to_float lm n F h -> is_intn n t -> t <> 0%Z -> t <> nar n -> h t = Val y -> h (- t)%Z = Val (fneg y).
Proof.
  intros lm n F h t y C H It N0 NN Ey. assert (is_real_takum n t) as R by (split; [assumption|split; assumption]).
  destruct (log_to_inv _ _ _ _ H) as (m & G & cl & po & Hm & <- & HG & H32 & Hsub & H80 & (Cv & _ & _) & (_ & _ & _ & Pn) & Hf).
  pose proof (mo_range m Hm) as Hn. assert (is_real_takum (m_n m) (- t)) as R' by (apply neg_real; assumption || lia).
  destruct (mo_dec m Hm t R) as (l & El & Hl). destruct (mo_dec m Hm _ R') as (l' & El' & Hl'). rewrite l_neg in Hl' by (assumption || lia).
  rewrite Hf, El in Ey. rewrite Hf, El'. cbn [bind] in Ey |- *. injection Ey as <-. f_equal. rewrite <- Pn. f_equal.
  assert (cpow lm (sq G) (cl l) = cpow lm (sq G) (cl l')) as ->.
  { destruct (Req_dec (l_ (m_n m) t) 0) as [E0|N].
    - rewrite E0 in Hl, Hl'. assert (isf (cl l) 0) as Z1 by (rewrite <- (RF_0 G); apply Cv; [assumption|rewrite Rabs_R0; lra]).
      assert (isf (cl l') 0) as Z2 by (rewrite <- (RF_0 G); apply Cv; [assumption|rewrite Rabs_R0; lra]).
      assert (in_range G 0) as Rg by (unfold in_range; destruct G; rewrite Rabs_R0; lra).
      destruct (pow_sq lm G (cl l) 0 C HG Z1 Rg) as (A & _ & _ & E). destruct (pow_sq lm G (cl l') 0 C HG Z2 Rg) as (A' & _ & _ & E').
      apply (isf_inj G _ _ 1); [split; [assumption|apply E; reflexivity]|split; [assumption|apply E'; reflexivity]|lra].
    - rewrite (isf_inj _ l l' _ Hl Hl' N). reflexivity. }
  rewrite <- fmul_neg_l. f_equal. rewrite <- fint_neg.
  - f_equal. unfold int_sign. destruct (Z.eqb_spec t 0), (Z.eqb_spec (- t) 0), (Z.ltb_spec t 0), (Z.ltb_spec (- t) 0); try lia; reflexivity.
  - unfold int_sign. destruct (Z.eqb_spec t 0); [contradiction|]. destruct (t <? 0)%Z; discriminate.
Qed.

Lemma log_to_pos_lt : forall lm n h s t, c99 lm -> log_to_float lm n f80 h -> is_real_takum n s -> is_real_takum n t -> (0 < s < t)%Z ->
  exists y z, h s = Val y /\ h t = Val z /\ is_finite y = true /\ is_finite z = true /\ 0 < B2R y < B2R z.
Proof.
  intros lm n h s t C H Rs Rt O. assert (8 <= n <= 64)%Z as Hn by (destruct H; lia).
  destruct (log_to_ld_real lm n h s C H Rs) as (y & p & Ey & [Fy Vy] & Pp & Ep & _).
  destruct (log_to_ld_real lm n h t C H Rt) as (z & q & Ez & [Fz Vz] & Pq & Eq & _).
  exists y, z. split; [assumption|]. split; [assumption|]. split; [assumption|]. split; [assumption|].
  rewrite Vy, Vz. replace (s <? 0)%Z with false by lia. replace (t <? 0)%Z with false by lia. unfold sg. rewrite !Rmult_1_l. split; [assumption|].
  apply ln_lt_inv; [assumption|assumption|].
  assert (l_ n s < l_ n t) as L by (apply (l_lt_pos n); (assumption || lia)).
  destruct (l_gap n ltac:(lia) s t Rs Rt ltac:(lia) L) as [G1 G2].
  assert (bpow radix2 (5 - n) <= l_ n t - l_ n s) as G0.
  { rewrite !l_sg_cpm by (assumption || lia). replace (s <? 0)%Z with false by lia. replace (t <? 0)%Z with false by lia. unfold sg. rewrite !Rmult_1_l.
    pose proof (real_low_pos n s ltac:(lia) Rs). pose proof (real_low_pos n t ltac:(lia) Rt). apply cpm_gap0; [lia| |lia].
    rewrite !low_cases by (apply Rs || apply Rt || lia). destruct (Z.ltb_spec s 0), (Z.ltb_spec t 0); lia. }
  assert (bpow radix2 (-60) <= bpow radix2 (4 - n)) as B4 by (apply bpow_le; lia). assert (bpow radix2 (-59) <= bpow radix2 (5 - n)) as B5 by (apply bpow_le; lia).
  set (a := Rabs (l_ n s)) in *. set (b := Rabs (l_ n t)) in *. assert (0 <= a) by apply Rabs_pos. assert (0 <= b) by apply Rabs_pos.
  assert (bpow radix2 (-60) * (a + 1) <= l_ n t - l_ n s) as K1 by (eapply Rle_trans; [|exact G1]; apply Rmult_le_compat_r; lra).
  assert (bpow radix2 (-60) * (b + 1) <= l_ n t - l_ n s) as K2 by (eapply Rle_trans; [|exact G2]; apply Rmult_le_compat_r; lra).
  apply Rabs_le_inv in Ep, Eq. simpl in *. destruct (Rle_or_lt a (1/2)); destruct (Rle_or_lt b (1/2)); lra.
Qed.

Lemma log_to_lt : forall lm n h s t, c99 lm -> log_to_float lm n f80 h -> is_intn n s -> is_intn n t -> s <> nar n -> (s < t)%Z ->
  exists y z, h s = Val y /\ h t = Val z /\ is_finite y = true /\ is_finite z = true /\ B2R y < B2R z.
Proof.
  intros lm n h s t C H Is It Ns O. assert (8 <= n <= 64)%Z as Hn by (destruct H; lia).
  assert (t <> nar n) as Nt by (unfold is_intn, nar in *; lia).
  assert (forall u, is_intn n u -> u <> 0%Z -> u <> nar n -> exists y, h u = Val y /\ is_finite y = true /\ ((0 < u)%Z -> 0 < B2R y) /\ ((u < 0)%Z -> B2R y < 0)) as K.
  { intros u Iu U0 Un. assert (is_real_takum n u) as R by (split; [assumption|split; assumption]).
    destruct (log_to_ld_real lm n h u C H R) as (y & p & Ey & [Fy Vy] & Pp & _). exists y. split; [assumption|]. split; [assumption|].
    rewrite Vy. unfold sg. destruct (Z.ltb_spec u 0); split; intros; lia || lra. }
  pose proof (log_to_0 lm n f80 h C H) as H0.
  destruct (Z.lt_trichotomy s 0) as [S|[S|S]]; destruct (Z.lt_trichotomy t 0) as [T|[T|T]]; try lia.
  - destruct (log_to_pos_lt lm n h (- t) (- s)%Z C H) as (y & z & Ey & Ez & Fy & Fz & L); try lia;
      [apply neg_real; [lia|]; split; [assumption|split; [lia|assumption]]|apply neg_real; [lia|]; split; [assumption|split; [lia|assumption]]|].
    assert (is_intn n (- t) /\ is_intn n (- s)) as [It' Is'] by (unfold is_intn, nar in *; lia).
    pose proof (log_to_neg lm n f80 h (- t) y C H It' ltac:(lia) ltac:(unfold is_intn, nar in *; lia) Ey) as E1.
    pose proof (log_to_neg lm n f80 h (- s) z C H Is' ltac:(lia) ltac:(unfold is_intn, nar in *; lia) Ez) as E2.
    rewrite Z.opp_involutive in E1, E2. exists (fneg z), (fneg y). unfold fneg. rewrite !is_finite_Bopp, !B2R_Bopp.
    repeat (split; [assumption|]). lra.
  - subst t. destruct (K s Is ltac:(lia) Ns) as (y & Ey & Fy & _ & L). exists y, (B754_zero false). repeat (split; [assumption || reflexivity|]). simpl. auto.
  - destruct (K s Is ltac:(lia) Ns) as (y & Ey & Fy & _ & L). destruct (K t It ltac:(lia) Nt) as (z & Ez & Fz & L' & _). exists y, z. repeat (split; [assumption|]).
    specialize (L S). specialize (L' T). lra.
  - subst s. destruct (K t It ltac:(lia) Nt) as (z & Ez & Fz & L' & _). exists (B754_zero false), z. repeat (split; [assumption || reflexivity|]). simpl. auto.
  - destruct (log_to_pos_lt lm n h s t C H) as (y & z & Ey & Ez & Fy & Fz & L); try lia;
      [split; [assumption|split; [lia|assumption]]|split; [assumption|split; [lia|assumption]]|]. exists y, z. repeat (split; [assumption|]). lra.
Qed.

(** ** Addition and subtraction *)
Lemma log_arith : forall lm w, exists h g, log_to_float lm (bits w) f80 h /\ log_from_float lm (bits w) f80 g /\
  (forall a b, api_binary Logarithmic lm n_addition w a b = bind (h a) (fun x => bind (h b) (fun y => g (fadd x y)))) /\
  (forall a b, api_binary Logarithmic lm n_subtraction w a b = bind (h a) (fun x => bind (h b) (fun y => g (fsub x y)))).
Proof.
  intros lm w. exists (log_to_ld x86_64 lm w), (log_from_ld x86_64 lm w). split; [destruct w; constructor|]. split; [destruct w; constructor|].
  split; intros a b; reflexivity.
Qed.

(** arguments: 0, NaR, or a nonzero float *)
Lemma log_arg : forall lm n h t, c99 lm -> log_to_float lm n f80 h -> is_intn n t ->
  (t = 0%Z /\ h t = Val (B754_zero false)) \/ (t = nar n /\ h t = Val B754_nan) \/
  (t <> 0%Z /\ t <> nar n /\ exists s m e H, h t = Val (B754_finite s m e H)).
Proof.
  intros lm n h t C H It. assert (8 <= n <= 64)%Z as Hn by (destruct H; lia). destruct (takum_cases n t It) as [->|[->|R]].
  - left. split; [reflexivity|]. eapply log_to_0; eassumption.
  - right. left. split; [reflexivity|]. eapply log_to_nar; eassumption.
  - right. right. destruct R as (_ & R0 & RN). split; [assumption|]. split; [assumption|].
    destruct (log_to_ld_real lm n h t C H (conj It (conj R0 RN))) as (y & p & Ey & [Fy Vy] & Pp & _).
    destruct y as [s|s| |s m e He]; try discriminate Fy; [|eauto 10]. simpl in Vy. revert Vy. unfold sg. destruct (t <? 0)%Z; intros; lra.
Qed.

Lemma f80_trip : forall lm n h g t y, c99 lm -> log_to_float lm n f80 h -> log_from_float lm n f80 g -> is_intn n t -> h t = Val y -> g y = Val t.
Proof.
  intros lm n h g t y C Hh Hg It E. pose proof (log_trip lm n f80 h g t C Hh Hg) as K. rewrite E in K. apply K; [|assumption|discriminate].
  assert (n <= 64)%Z by (destruct Hh; lia). simpl. lia.
Qed.

Theorem log_addition_commutes : forall lm w a b, api_binary Logarithmic lm n_addition w a b = api_binary Logarithmic lm n_addition w b a.
Proof.
  intros lm w a b. destruct (log_arith lm w) as (h & g & _ & _ & Ea & _). rewrite !Ea. destruct (h a), (h b); try reflexivity. cbn [bind]. rewrite fadd_comm. reflexivity.
Qed.

Theorem log_zero_neutral : forall lm w a, c99 lm -> is_intn (bits w) a ->
  api_binary Logarithmic lm n_addition w a 0 = Val a /\ api_binary Logarithmic lm n_subtraction w a 0 = Val a /\
  (a <> nar (bits w) -> api_binary Logarithmic lm n_subtraction w 0 a = Val (- a)%Z).
Proof.
  intros lm w a C Ia. destruct (log_arith lm w) as (h & g & Hh & Hg & Ea & Es). rewrite Ea, !Es.
  pose proof (log_to_0 _ _ _ _ C Hh) as H0. rewrite H0. cbn [bind].
  assert (forall y, h a = Val y -> g y = Val a) as T by (intros y; eapply f80_trip; eassumption).
  destruct (log_arg _ _ _ a C Hh Ia) as [(-> & E)|[(-> & E)|(N0 & NN & s & m & e & He & E)]]; rewrite E; cbn [bind]; specialize (T _ E).
  - split; [exact T|]. split; [exact T|]. intros _. exact T.
  - split; [exact T|]. split; [exact T|]. contradiction.
  - split; [exact T|]. split; [exact T|]. intros _. apply (f80_trip lm (bits w) h g); try assumption; [unfold is_intn, nar in *; lia|].
    exact (log_to_neg _ _ _ _ _ _ C Hh Ia N0 NN E).
Qed.

Lemma zero_from : forall lm n F g (y : flt F), log_from_float lm n F g -> is_finite y = true -> B2R y = 0 -> g y = Val 0%Z.
Proof.
  intros lm n F g [s|s| |s m e He] H Fy Vy; try discriminate Fy; [apply (log_from_0 lm n F g s H)|]. exfalso. apply eq_0_F2R in Vy. destruct s; discriminate Vy.
Qed.

Theorem log_subtraction_is_addition : forall lm w a b, c99 lm -> is_intn (bits w) a -> is_intn (bits w) b -> b <> nar (bits w) ->
  api_binary Logarithmic lm n_subtraction w a b = api_binary Logarithmic lm n_addition w a (- b).
Proof.
  intros lm w a b C Ia Ib Nb. destruct (Z.eq_dec b 0) as [->|N0].
  { simpl Z.opp. destruct (log_zero_neutral lm w a C Ia) as (-> & -> & _). reflexivity. }
  destruct (log_arith lm w) as (h & g & Hh & Hg & Ea & Es). rewrite Ea, Es.
  destruct (log_arg _ _ _ b C Hh Ib) as [(-> & E)|[(-> & E)|(_ & _ & s & m & e & He & E)]]; [contradiction|contradiction|].
  rewrite (log_to_neg _ _ _ _ _ _ C Hh Ib N0 Nb E), E. destruct (h a); reflexivity.
Qed.

Lemma log_to_bound : forall lm n h t y, c99 lm -> log_to_float lm n f80 h -> is_intn n t -> h t = Val y -> is_finite y = true -> Rabs (B2R y) <= bpow radix2 200.
Proof.
  intros lm n h t y C H It Ey Fy. assert (8 <= n <= 64)%Z as Hn by (destruct H; lia). pose proof (bpow_ge_0 radix2 200) as P.
  destruct (takum_cases n t It) as [->|[->|R]].
  - rewrite (log_to_0 _ _ _ _ C H) in Ey. injection Ey as <-. simpl B2R. rewrite Rabs_R0. assumption.
  - rewrite (log_to_nar _ _ _ _ C H) in Ey. injection Ey as <-. discriminate Fy.
  - destruct (log_to_ld_real lm n h t C H R) as (y' & p & Ey' & [_ Vy] & Pp & Ep & _). assert (y' = y) as -> by congruence. rewrite Vy, Rabs_mult, sg_abs, Rmult_1_l, Rabs_pos_eq by lra.
    rewrite <- (exp_ln p) by assumption. apply exp_ln2_le; [|lia]. pose proof (l_abs n t ltac:(lia) R). pose proof (Rle_abs (l_ n t)). apply Rabs_le_inv in Ep. simpl in Ep. lra.
Qed.

(** the sign of a difference is the result of the comparison *)
Theorem log_difference_sign : forall lm w a b, c99 lm -> is_intn (bits w) a -> is_intn (bits w) b -> a <> nar (bits w) -> b <> nar (bits w) ->
  exists t, api_binary Logarithmic lm n_subtraction w a b = Val t /\ t <> nar (bits w) /\ Z.sgn t = Z.sgn (a - b).
Proof.
  intros lm w a b C Ia Ib Na Nb. destruct (log_arith lm w) as (h & g & Hh & Hg & _ & Es). rewrite Es. set (n := bits w) in *.
  assert (8 <= n <= 64)%Z as Hn by (unfold n; destruct w; simpl; lia). pose proof (pow2_pos (n - 1) ltac:(lia)) as P2.
  assert (exists x y, h a = Val x /\ h b = Val y /\ is_finite x = true /\ is_finite y = true /\
    ((a < b)%Z -> B2R x < B2R y) /\ ((b < a)%Z -> B2R y < B2R x) /\ (a = b -> x = y)) as (x & y & Ex & Eb & Fx & Fy & L1 & L2 & L3).
  { destruct (Z.lt_trichotomy a b) as [O|[<-|O]].
    - destruct (log_to_lt lm n h a b C Hh Ia Ib Na O) as (x & y & -> & -> & A & B & D). exists x, y. repeat (split; [assumption || reflexivity|]). split; [auto|]. split; lia.
    - destruct (log_arg _ _ _ a C Hh Ia) as [(-> & E)|[(-> & E)|(N0 & NN & s & m & e & He & E)]]; [|contradiction|];
        (rewrite E; eexists; eexists; do 4 (split; [reflexivity|]); split; [lia|]; split; [lia|reflexivity]).
    - destruct (log_to_lt lm n h b a C Hh Ib Ia Nb O) as (y & x & -> & -> & A & B & D). exists x, y. repeat (split; [assumption || reflexivity|]). split; [lia|]. split; [auto|lia]. }
  rewrite Ex, Eb. cbn [bind]. destruct (Z.eq_dec a b) as [E|N].
  - exists 0%Z. split; [|split; [unfold nar; lia|subst b; rewrite Z.sub_diag; reflexivity]]. rewrite (L3 E). apply (zero_from lm n f80 g _ Hg).
    + pose proof (Bminus_correct (fprec f80) (femax f80) _ _ mode_NE y y Fy Fy) as K. fold (fsub y y) in K. rewrite Rminus_diag_eq, round_0, Rabs_R0, Rlt_bool_true in K; [apply K|apply bpow_gt_0|apply valid_rnd_N|reflexivity].
    + pose proof (Bminus_correct (fprec f80) (femax f80) _ _ mode_NE y y Fy Fy) as K. fold (fsub y y) in K. rewrite Rminus_diag_eq, round_0, Rabs_R0, Rlt_bool_true in K; [apply K|apply bpow_gt_0|apply valid_rnd_N|reflexivity].
  - assert (B2R x - B2R y <> 0) as D by (destruct (Z.lt_gt_cases a b) as [K _]; destruct (K N) as [O|O]; [specialize (L1 O)|specialize (L2 O)]; lra).
    pose proof (log_to_bound lm n h a x C Hh Ia Ex Fx) as B1. pose proof (log_to_bound lm n h b y C Hh Ib Eb Fy) as B2.
    assert (Rabs (RF f80 (B2R x - B2R y)) < bpow radix2 (femax f80)) as B.
    { apply (RF_lt_emax f80 _ 201); [split; vm_compute; congruence|]. unfold Rminus. eapply Rle_trans; [apply Rabs_triang|]. rewrite Rabs_Ropp. replace (bpow radix2 201) with (2 * bpow radix2 200) by (change 201%Z with (1 + 200)%Z; rewrite bpow_plus; reflexivity). lra. }
    destruct (isf_fsub x y _ _ (conj Fx eq_refl) (conj Fy eq_refl) B) as [Fd Vd].
    assert (RF f80 (B2R x - B2R y) <> 0) as Nd.
    { apply (round_plus_neq_0 radix2 (FLT_exp (femin f80) (fprec f80)) (Znearest (fun z => negb (Z.even z))) (B2R x) (- B2R y)); [apply generic_format_B2R|apply generic_format_opp, generic_format_B2R|assumption]. }
    destruct (log_from_faithful lm n f80 g (fsub x y) C Hg Fd) as (t & -> & Rt). exists t. split; [reflexivity|]. rewrite Vd in Rt.
    destruct Rt as [[E _]|[_ (Rt & St & _)]]; [contradiction|]. destruct Rt as (_ & T0 & TN). split; [assumption|].
    destruct (Z.lt_gt_cases a b) as [K _]; destruct (K N) as [O|O].
    + specialize (L1 O). pose proof (proj2 (RF_sign f80 (B2R x - B2R y)) ltac:(lra)). rewrite Rlt_bool_true in St by lra. simpl in St. rewrite !Z.sgn_neg by lia. reflexivity.
    + specialize (L2 O). pose proof (proj1 (RF_sign f80 (B2R x - B2R y)) ltac:(lra)). rewrite Rlt_bool_false in St by lra. simpl in St. rewrite !Z.sgn_pos by lia. reflexivity.
Qed.

Theorem log_sum_sign : forall lm w a b, c99 lm -> is_intn (bits w) a -> is_intn (bits w) b -> a <> nar (bits w) -> b <> nar (bits w) ->
  exists t, api_binary Logarithmic lm n_addition w a b = Val t /\ t <> nar (bits w) /\ Z.sgn t = Z.sgn (a + b).
Proof.
  intros lm w a b C Ia Ib Na Nb. assert (is_intn (bits w) (- b) /\ - b <> nar (bits w))%Z as [Ib' Nb'].
  { pose proof (pow2_pos (bits w - 1) ltac:(destruct w; simpl; lia)). unfold is_intn, nar in *. lia. }
  destruct (log_difference_sign lm w a (- b) C Ia Ib' Na Nb') as (t & E & H). exists t. rewrite log_subtraction_is_addition in E by assumption. rewrite Z.opp_involutive in E.
  replace (a - - b)%Z with (a + b)%Z in H by ring. split; assumption.
Qed.
