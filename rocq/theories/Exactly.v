(** Coordinates that are takums, exact squares and powers, and computing in a
    wider format (C95-C98). *)
From Coq Require Import ZArith Reals Bool Lia Lra.
From Flocq Require Import Core.Core.
From Verif Require Import CModel FloatModel WidthConv Spec CodeFacts SpecFacts ValueFacts RoundFacts WidthFacts WidthApi WidthProps Machine LogApi LogFacts LogProps Faithful RangeFacts WidthSteps LinApi LinArith.
Local Open Scope R_scope.

(** * Coordinates that are takums *)
Lemma G_rep : forall n x u, (6 <= n <= 64)%Z -> -255 < x < 255 -> G n x = IZR u -> (0 < u < 2 ^ (n - 1))%Z /\ cpm n u = x.
Proof.
  intros n x u Hn Hx Hu. destruct (G_loc n Hn x ltac:(lra)) as (HD & Hb & HG).
  assert (2 ^ (n - 1) = 16 * 2 ^ (n - 5))%Z as E1.
  { change 16%Z with (2 ^ 4)%Z. rewrite <- pow2_split by lia. f_equal. lia. }
  pose proof (pow2_pos (n - 5) ltac:(lia)) as P.
  assert (u < 2 ^ (n - 1))%Z as U2.
  { apply lt_IZR. rewrite <- Hu. eapply Rlt_le_trans; [apply HG|]. apply IZR_le. nia. }
  assert (cpm n 0 = -255) as C0.
  { pose proof (cpm_affine n Hn 0 0 ltac:(lia) ltac:(lia) ltac:(lia)) as C. change (0 * 2 ^ (n - 5) + 0)%Z with 0%Z in C. rewrite C.
    change (biasZ 0) with (-255)%Z. ring. }
  assert (0 < u)%Z as U1.
  { apply lt_IZR. rewrite <- Hu. rewrite <- (G_cpm n Hn 0) by lia. apply G_strict_mono; [assumption|lra|lra]. }
  split; [lia|]. pose proof (cpm_bounds n Hn u ltac:(lia)) as B. pose proof (G_cpm n Hn u ltac:(lia)) as Gu.
  destruct (Rtotal_order (cpm n u) x) as [K|[K|K]]; [|assumption|]; exfalso.
  - pose proof (G_strict_mono n Hn _ _ (conj (proj1 B) K) ltac:(lra)). lra.
  - assert (-255 <= x < cpm n u) as K' by lra. pose proof (G_strict_mono n Hn _ _ K' ltac:(lra)). lra.
Qed.
(** enough bits for the regime of x *)
Lemma rep_regime : forall n x k d, (6 <= n <= 64)%Z -> -255 < x < 255 -> (0 <= d <= n - 5 - regZ (DRof (Zfloor x)))%Z ->
  x = IZR k * bpow radix2 (- d) -> exists u, (0 < u < 2 ^ (n - 1))%Z /\ cpm n u = x.
Proof.
  intros n x k d Hn Hx Hd Ex. set (q := (n - 5 - regZ (DRof (Zfloor x)))%Z) in *. set (DR := DRof (Zfloor x)) in *.
  exists (DR * 2 ^ (n - 5) + (k * 2 ^ (q - d) - biasZ DR * 2 ^ q))%Z. apply (G_rep n x _ Hn Hx).
  unfold G. fold DR. fold q. rewrite plus_IZR, minus_IZR, !(mult_IZR _ (2 ^ (q - d))), !(mult_IZR _ (2 ^ q)), !IZR_pow2 by lia.
  f_equal. rewrite Rmult_minus_distr_r. f_equal. rewrite Ex at 1. rewrite Rmult_assoc, <- bpow_plus. f_equal. f_equal. lia.
Qed.
Lemma floor_range : forall x, -255 < x < 255 -> (-255 <= Zfloor x < 255)%Z.
Proof. intros x Hx. split; [apply Zfloor_lub; lra|]. apply lt_IZR. pose proof (Zfloor_lb x). lra. Qed.
Lemma rep_wide : forall n x k, (12 <= n <= 64)%Z -> -255 < x < 255 -> x = IZR k * bpow radix2 (- (n - 12)) ->
  exists u, (0 < u < 2 ^ (n - 1))%Z /\ cpm n u = x.
Proof.
  intros n x k Hn Hx Ex. apply (rep_regime n x k (n - 12)); [lia|assumption| |assumption].
  pose proof (floor_range x Hx). destruct (DRof_spec (Zfloor x) ltac:(lia)) as [HD _]. pose proof (regZ_bounds _ HD). lia.
Qed.
(** as takums *)
Lemma sg_opp_rep : forall n (s : bool) L, (6 <= n <= 64)%Z -> (exists u, (0 < u < 2 ^ (n - 1))%Z /\ cpm n u = L) ->
  exists t, is_real_takum n t /\ (t <? 0)%Z = s /\ l_ n t = L.
Proof.
  intros n s L Hn (u & Bu & Eu). pose proof (pow2_pos (n - 1) ltac:(lia)).
  exists (asm n s (if s then 2 ^ (n - 1) - u else u)%Z). assert (0 < (if s then 2 ^ (n - 1) - u else u) < 2 ^ (n - 1))%Z as B by (destruct s; lia).
  split; [apply asm_real; assumption|]. split; [apply asm_neg; lia|]. rewrite l_asm by assumption.
  destruct s; [rewrite cpm_opp by assumption|]; rewrite Eu; ring.
Qed.
(** the regime grows by one when the coordinate doubles *)
Lemma double_regime : forall L, -255 < 2 * L < 255 -> (regZ (DRof (Zfloor (2 * L))) <= regZ (DRof (Zfloor L)) + 1)%Z.
Proof.
  intros L HL. assert (-255 < L < 255) as HL' by lra. pose proof (floor_range _ HL) as F2. pose proof (floor_range _ HL') as F1.
  assert (2 * Zfloor L <= Zfloor (2 * L) <= 2 * Zfloor L + 1)%Z as B.
  { pose proof (Zfloor_lb L). pose proof (Zfloor_ub L). pose proof (Zfloor_lb (2 * L)). split; [apply Zfloor_lub; rewrite mult_IZR; lra|].
    assert (Zfloor (2 * L) < 2 * Zfloor L + 2)%Z; [|lia]. apply lt_IZR. rewrite plus_IZR, mult_IZR. lra. }
  set (c := Zfloor L) in *. set (c' := Zfloor (2 * L)) in *.
  unfold regZ, DRof. destruct (Z.ltb_spec c 0) as [H|H]; destruct (Z.ltb_spec c' 0) as [H'|H']; try lia.
  - pose proof (Z.log2_nonneg (- c)). pose proof (Z.log2_nonneg (- c')).
    assert (Z.log2 (- c') <= Z.log2 (- c) + 1)%Z as K.
    { rewrite Z.add_1_r. rewrite <- Z.log2_double by lia. apply Z.log2_le_mono. lia. }
    destruct (Z.ltb_spec (7 - Z.log2 (- c)) 8); [|lia]. destruct (Z.ltb_spec (7 - Z.log2 (- c')) 8); lia.
  - pose proof (Z.log2_nonneg (c + 1)). pose proof (Z.log2_nonneg (c' + 1)).
    assert (Z.log2 (c' + 1) <= Z.log2 (c + 1) + 1)%Z as K.
    { replace (Z.log2 (c + 1) + 1)%Z with (Z.succ (Z.log2 (c + 1))) by lia. rewrite <- Z.log2_double by lia. apply Z.log2_le_mono. lia. }
    destruct (Z.ltb_spec (8 + Z.log2 (c + 1)) 8); [lia|]. destruct (Z.ltb_spec (8 + Z.log2 (c' + 1)) 8); lia.
Qed.
Lemma double_rep : forall n u, (13 <= n <= 64)%Z -> (0 < u < 2 ^ (n - 1))%Z -> -255 < 2 * cpm n u < 255 ->
  exists v, (0 < v < 2 ^ (n - 1))%Z /\ cpm n v = 2 * cpm n u.
Proof.
  intros n u Hn Bu H. set (DR := DRof (Zfloor (cpm n u))).
  assert (-255 < cpm n u < 255) as Hu by lra. pose proof (floor_range _ Hu) as F. destruct (DRof_spec _ F) as [HD _]. fold DR in HD.
  pose proof (regZ_bounds _ HD) as Rg. pose proof (double_regime _ H) as D. fold DR in D.
  pose proof (G_cpm n ltac:(lia) u ltac:(lia)) as Gu. unfold G in Gu. fold DR in Gu.
  set (q := (n - 5 - regZ DR)%Z) in *.
  assert (cpm n u = IZR (u - DR * 2 ^ (n - 5) + biasZ DR * 2 ^ q) * bpow radix2 (- q)) as Ec.
  { rewrite plus_IZR, minus_IZR, <- Gu. rewrite (mult_IZR (biasZ DR)), IZR_pow2 by lia.
    replace ((IZR (DR * 2 ^ (n - 5)) + (cpm n u - IZR (biasZ DR)) * bpow radix2 q - IZR (DR * 2 ^ (n - 5)) + IZR (biasZ DR) * bpow radix2 q) * bpow radix2 (- q))
      with (cpm n u * (bpow radix2 q * bpow radix2 (- q))) by ring.
    rewrite <- bpow_plus. replace (q + - q)%Z with 0%Z by lia. change (bpow radix2 0) with 1. ring. }
  apply (rep_regime n _ (u - DR * 2 ^ (n - 5) + biasZ DR * 2 ^ q) (q - 1)); [lia|assumption|lia|].
  rewrite Ec. replace (- (q - 1))%Z with (1 + - q)%Z by lia. rewrite bpow_plus. change (bpow radix2 1) with 2. ring.
Qed.
Lemma double_takum : forall n t (s : bool), (13 <= n <= 64)%Z -> is_real_takum n t -> -255 < 2 * l_ n t < 255 ->
  exists t', is_real_takum n t' /\ (t' <? 0)%Z = s /\ l_ n t' = 2 * l_ n t.
Proof.
  intros n t s Hn R H. rewrite l_sg_cpm in * by (assumption || lia). pose proof (real_low_pos n t ltac:(lia) R) as B.
  apply sg_opp_rep; [lia|]. unfold sg in *. destruct (t <? 0)%Z.
  - assert (cpm n (2 ^ (n - 1) - low n t) = -1 * cpm n (low n t)) as E by (rewrite cpm_opp by (assumption || lia); ring).
    rewrite <- E in *. apply double_rep; lia || lra.
  - rewrite Rmult_1_l in *. apply double_rep; lia || lra.
Qed.

(** * Exact results are returned *)
Lemma exact_result : forall k n x t t', std_width n -> is_intn n t' -> rounds_faithfully k n x t -> value k n t' = Some x -> t = t'.
Proof.
  intros k n x t t' Sw I' F V. destruct (faithful_value k n x t Sw F) as (It & y & Vy & _).
  pose proof (faithful_le k n x t y t' x Sw F Vy I' V (Rle_refl x)). pose proof (faithful_ge k n x t y t' x Sw F Vy I' V (Rle_refl x)).
  assert (y = x) as -> by lra. apply (value_injective k n); [assumption..|congruence].
Qed.
Lemma log_mult_width : forall n f, log_multiplication n f -> std_width n.
Proof. intros n f []; unfold std_width; auto. Qed.
(** the coordinate of a number in terms of its value *)
Lemma log_range : forall n t x c, (8 <= n <= 64)%Z -> is_real_takum n t -> value Logarithmic n t = Some x ->
  exp (- c / 2) < Rabs x < exp (c / 2) -> - c < l_ n t < c.
Proof.
  intros n t x c Hn R V [H1 H2]. rewrite value_log_real in V by assumption. injection V as <-.
  rewrite Rabs_mult, sg_abs, Rmult_1_l, Rabs_pos_eq in H1, H2 by (left; apply exp_pos). apply exp_lt_inv in H1, H2. lra.
Qed.
Lemma square_exact : forall n f t x, log_multiplication n f -> n <> 8%Z -> is_intn n t -> value Logarithmic n t = Some x ->
  (x = 0 \/ exp (- 255 / 4) < Rabs x < exp (255 / 4)) ->
  exists u, f t t = Val u /\ is_intn n u /\ value Logarithmic n u = Some (x * x).
Proof.
  intros n f t x Hf N8 It V Hx. pose proof (log_mult_width n f Hf) as Sw. pose proof (std_range n Sw) as Hn.
  destruct (mul_faithful n f t t Hf It It) as (u & E & Iu & F). rewrite V in F. exists u. split; [assumption|]. split; [assumption|].
  assert (exists t', is_intn n t' /\ value Logarithmic n t' = Some (x * x)) as (t' & I' & V').
  { destruct (takum_cases n t It) as [->|[->|R]].
    - exists 0%Z. split; [assumption|]. rewrite value_0 in *. injection V as <-. f_equal. ring.
    - rewrite value_nar in V by lia. discriminate.
    - assert (x <> 0) as N0.
      { rewrite value_log_real in V by assumption. injection V as <-. pose proof (exp_pos (l_ n t / 2)). unfold sg. destruct (t <? 0)%Z; lra. }
      destruct Hx as [Hx|Hx]; [contradiction|].
      assert (- (255 / 2) < l_ n t < 255 / 2) as HL.
      { apply (log_range n t x _ Hn R V). replace (- (255 / 2) / 2) with (-255 / 4) by field. replace (255 / 2 / 2) with (255 / 4) by field. assumption. }
      destruct (double_takum n t false ltac:(unfold std_width in Sw; lia) R ltac:(lra)) as (t' & R' & S' & L').
      exists t'. split; [apply R'|]. rewrite value_log_real in V |- * by assumption. injection V as <-. f_equal. rewrite S', L'.
      replace (2 * l_ n t / 2) with (l_ n t / 2 + l_ n t / 2) by field. rewrite exp_plus. unfold sg. destruct (t <? 0)%Z; ring. }
  rewrite (exact_result Logarithmic n (x * x) u t' Sw I' F V'). assumption.
Qed.
Lemma value_abs : forall k n t x, (8 <= n <= 64)%Z -> is_intn n t -> value k n t = Some x -> is_intn n (Z.abs t) /\ value k n (Z.abs t) = Some (Rabs x).
Proof.
  intros k n t x Hn It V. destruct (takum_cases n t It) as [->|[->|R]].
  - rewrite value_0 in *. injection V as <-. rewrite Rabs_R0. auto.
  - rewrite value_nar in V by lia. discriminate.
  - pose proof V as V0. rewrite (value_real n) in V by (assumption || lia). injection V as Ex. pose proof (E_pos k (l_ n t)).
    destruct (Z.ltb_spec t 0) as [S|S].
    + rewrite Z.abs_neq by lia. rewrite Rabs_left by (rewrite <- Ex; lra). split; [apply neg_real; assumption || lia|apply value_neg; assumption || lia].
    + rewrite Z.abs_eq by lia. rewrite Rabs_pos_eq by (rewrite <- Ex; lra). auto.
Qed.
Lemma square_root_of_square : forall n f g t x, log_multiplication n f -> log_square_root n g -> n <> 8%Z -> is_intn n t -> value Logarithmic n t = Some x ->
  (x = 0 \/ exp (- 255 / 4) < Rabs x < exp (255 / 4)) ->
  exists u, f t t = Val u /\ g u = Val (Z.abs t).
Proof.
  intros n f g t x Hf Hg N8 It V Hx. pose proof (log_mult_width n f Hf) as Sw. pose proof (std_range n Sw) as Hn.
  destruct (square_exact n f t x Hf N8 It V Hx) as (u & E & Iu & Vu). exists u. split; [assumption|].
  destruct (sqrt_correct n g u Hg Iu) as (v & Ev & Iv & Sv). rewrite Ev. f_equal. rewrite Vu in Sv.
  destruct (value_abs Logarithmic n t x Hn It V) as [Ia Va]. destruct Sv as [[B _]|[_ R]]; [nra|].
  change (x * x) with (Rsqr x) in R. rewrite sqrt_Rsqr_abs in R.
  apply (rounds_unique Logarithmic n (Rabs x)); [lia|assumption|]. apply WidthSteps.rounds_self; assumption.
Qed.

(** powers with the exponent 2^j *)
Lemma double_takum_iter : forall n j t (s : bool), (13 <= n <= 64)%Z -> is_real_takum n t -> -255 < 2 ^ S j * l_ n t < 255 ->
  exists t', is_real_takum n t' /\ (t' <? 0)%Z = s /\ l_ n t' = 2 ^ S j * l_ n t.
Proof.
  intros n j. induction j as [|j IH]; intros t s Hn R H.
  - destruct (double_takum n t s Hn R ltac:(simpl in H; lra)) as (t' & R' & S' & L'). exists t'. split; [assumption|]. split; [assumption|]. rewrite L'. simpl. ring.
  - assert (2 ^ S (S j) = 2 * 2 ^ S j) as P by reflexivity. rewrite P in *.
    destruct (IH t s Hn R ltac:(lra)) as (t1 & R1 & S1 & L1). destruct (double_takum n t1 s Hn R1 ltac:(rewrite L1; lra)) as (t2 & R2 & S2 & L2).
    exists t2. split; [assumption|]. split; [assumption|]. rewrite L2, L1. ring.
Qed.
Lemma powerRZ_pow2 : forall x j, powerRZ x (2 ^ Z.of_nat j) = x ^ (2 ^ j)%nat.
Proof.
  intros x j. rewrite pow_powerRZ. f_equal. rewrite Nat2Z.inj_pow. reflexivity.
Qed.
Lemma power_of_two_exact : forall n f t x j, log_integer_power n f -> n <> 8%Z -> is_intn n t -> value Logarithmic n t = Some x ->
  (0 <= j <= 62)%Z -> (x = 0 \/ exp (- 255 / 2) < powerRZ (Rabs x) (2 ^ j) < exp (255 / 2)) ->
  exists u, f t (2 ^ j)%Z = Val u /\ is_intn n u /\ value Logarithmic n u = Some (powerRZ x (2 ^ j)).
Proof.
  intros n f t x j Hf N8 It V Hj Hx. assert (n = 16 \/ n = 32)%Z as Wn by (destruct Hf; lia).
  assert (std_width n) as Sw by (unfold std_width; lia). pose proof (std_range n Sw) as Hn.
  assert (0 < 2 ^ j < 2 ^ 63)%Z as B by (split; [apply Z.pow_pos_nonneg; lia|apply Z.pow_lt_mono_r; lia]).
  destruct (pow_correct n f t (2 ^ j) Hf It ltac:(unfold is_int64; lia)) as (u & E & Iu & F). rewrite V in F. exists u. split; [assumption|]. split; [assumption|].
  destruct F as [(_ & ? & _)|[_ F]]; [lia|].
  assert (exists t', is_intn n t' /\ value Logarithmic n t' = Some (powerRZ x (2 ^ j))) as (t' & I' & V').
  { assert (powerRZ x (2 ^ j) = x ^ (2 ^ Z.to_nat j)%nat) as EP by (rewrite <- powerRZ_pow2; rewrite Z2Nat.id by lia; reflexivity).
    destruct (takum_cases n t It) as [->|[->|R]].
    - exists 0%Z. split; [assumption|]. rewrite value_0 in *. injection V as <-. f_equal. rewrite EP. rewrite pow_ne_zero; [reflexivity|].
      pose proof (Nat.pow_nonzero 2 (Z.to_nat j)). lia.
    - rewrite value_nar in V by lia. discriminate.
    - rewrite value_log_real in V by assumption. injection V as Ex. pose proof (exp_pos (l_ n t / 2)) as Pe.
      destruct Hx as [Hx|Hx]; [unfold sg in Ex; destruct (t <? 0)%Z; lra|].
      assert (Rabs x = exp (l_ n t / 2)) as Ax by (rewrite <- Ex, Rabs_mult, sg_abs, Rmult_1_l, Rabs_pos_eq; [reflexivity|lra]).
      assert (forall k L, exp L ^ k = exp (INR k * L)) as XP.
      { intros k L. induction k as [|k IH]; [rewrite Rmult_0_l, exp_0; reflexivity|]. rewrite S_INR, Rmult_plus_distr_r, exp_plus, <- IH, Rmult_1_l. simpl. ring. }
      assert (INR (2 ^ Z.to_nat j) = 2 ^ Z.to_nat j) as IP by (rewrite pow_INR; reflexivity).
      assert (powerRZ (Rabs x) (2 ^ j) = exp (2 ^ Z.to_nat j * l_ n t / 2)) as EA.
      { rewrite <- (Z2Nat.id j) at 1 by lia. rewrite powerRZ_pow2, Ax, XP, IP. f_equal. field. }
      rewrite EA in Hx. destruct Hx as [H1 H2]. apply exp_lt_inv in H1, H2.
      destruct (Z.to_nat j) as [|m] eqn:Ej.
      + exists t. split; [assumption|]. rewrite value_log_real, Ex by assumption. f_equal. rewrite EP. simpl. ring.
      + destruct (double_takum_iter n m t false ltac:(lia) R ltac:(lra)) as (t' & R' & S' & L'). exists t'. split; [apply R'|].
        rewrite value_log_real by assumption. f_equal. rewrite S', L', EP. unfold sg at 1. rewrite Rmult_1_l.
        rewrite <- Ex, Rpow_mult_distr, XP, IP. replace (2 ^ S m * (l_ n t / 2)) with (2 ^ S m * l_ n t / 2) by field.
        assert (sg (t <? 0)%Z ^ (2 ^ S m)%nat = 1) as ->; [|ring]. rewrite Nat.pow_succ_r', pow_mult. unfold sg. destruct (t <? 0)%Z.
        * replace ((-1) ^ 2) with 1 by ring. apply pow1.
        * rewrite !pow1. reflexivity. }
  rewrite (exact_result Logarithmic n _ u t' Sw I' (WidthSteps.rounds_faithful _ _ _ _ Sw F) V'). assumption.
Qed.

(** * Computing in a wider format *)
Lemma nearest_top : forall n s L L' v, (6 <= n <= 64)%Z -> (forall t, is_real_takum n t -> has_sign s t -> l_ n t <= L /\ l_ n t <= L') ->
  nearest n s L v -> nearest n s L' v.
Proof.
  intros n s L L' v Hn T (R & S & N). split; [assumption|]. split; [assumption|]. intros t Rt St. destruct (N t Rt St) as [D _].
  destruct (T v R S) as [V1 V2]. destruct (T t Rt St) as [T1 T2].
  rewrite (Rabs_left1 (l_ n v - L)), (Rabs_left1 (l_ n t - L)) in D by lra.
  rewrite (Rabs_left1 (l_ n v - L')), (Rabs_left1 (l_ n t - L')) by lra. split; [lra|]. intros K. left.
  apply (l_inj n ltac:(lia)); [assumption..| |lra]. rewrite (RoundFacts.has_sign_ltb s t St), (RoundFacts.has_sign_ltb s v S). reflexivity.
Qed.
Lemma nearest_bottom : forall n s L L' v, (6 <= n <= 64)%Z -> (forall t, is_real_takum n t -> has_sign s t -> L <= l_ n t /\ L' <= l_ n t) ->
  nearest n s L v -> nearest n s L' v.
Proof.
  intros n s L L' v Hn T (R & S & N). split; [assumption|]. split; [assumption|]. intros t Rt St. destruct (N t Rt St) as [D _].
  destruct (T v R S) as [V1 V2]. destruct (T t Rt St) as [T1 T2].
  rewrite (Rabs_pos_eq (l_ n v - L)), (Rabs_pos_eq (l_ n t - L)) in D by lra.
  rewrite (Rabs_pos_eq (l_ n v - L')), (Rabs_pos_eq (l_ n t - L')) by lra. split; [lra|]. intros K. left.
  apply (l_inj n ltac:(lia)); [assumption..| |lra]. rewrite (RoundFacts.has_sign_ltb s t St), (RoundFacts.has_sign_ltb s v S). reflexivity.
Qed.
Definition has_takum (k : kind) (n : Z) (z : R) : Prop := exists t, is_intn n t /\ value k n t = Some z.
Lemma narrow_exact : forall k A B f z t, narrowing k B A f -> rounds_faithfully k B z t -> has_takum k B z \/ 255 <= Rabs (coord k z) ->
  exists v, f t = Val v /\ is_intn A v /\ rounds k A z v.
Proof.
  intros k A B f z t Hf F H. pose proof Hf as Hf'. apply narrowing_inv in Hf' as (SB & SA & LAB & _).
  pose proof (std_range A SA) as HA. pose proof (std_range B SB) as HB.
  destruct (faithful_value k B z t SB F) as (It & y & Vy & _).
  destruct (narrowing_rounds k B A f t Hf It) as (v & E & Iv & R). rewrite Vy in R. exists v. split; [assumption|]. split; [assumption|].
  destruct F as [[Z0 T0]|[Nz F]].
  { subst. rewrite value_0 in Vy. injection Vy as <-. assumption. }
  destruct H as [(t' & I' & V')|H].
  { assert (t = t') as -> by (apply (exact_result k B z); [assumption..|right; split; assumption|assumption]). congruence. }
  set (s := Rlt_bool z 0) in *. destruct F as (Rt & St & F).
  rewrite (value_real B) in Vy by (assumption || lia). rewrite (RoundFacts.has_sign_ltb s t St) in Vy. injection Vy as <-. apply rounds_sg_inv in R.
  right. split; [assumption|]. fold s. set (L := coord k z) in *.
  assert (forall w, is_real_takum A w -> has_sign s w -> is_real_takum B (w * 2 ^ (B - A)) /\ has_sign s (w * 2 ^ (B - A)) /\ l_ B (w * 2 ^ (B - A)) = l_ A w /\ Rabs (l_ A w) <= 255) as W.
  { intros w Rw Sw'. destruct (expand_eq A B w SA SB LAB (proj1 Rw)) as [_ I]. pose proof (pow2_pos (B - A) ltac:(lia)) as P.
    assert (nar B = nar A * 2 ^ (B - A))%Z as NB by (unfold nar; rewrite Z.mul_opp_l, <- pow2_split by lia; do 2 f_equal; lia).
    split; [split; [apply I|]; destruct Rw as (_ & W0 & WN); rewrite NB; split; nia|].
    split; [unfold has_sign in *; destruct s; nia|]. split; [apply l_mul; [lia|lia|apply Rw]|]. apply l_abs; [lia|assumption]. }
  destruct (Rle_or_lt 0 L) as [P|P].
  - rewrite Rabs_pos_eq in H by assumption. apply (nearest_top A s (l_ B t) L v ltac:(lia)); [|assumption].
    intros w Rw Sw'. destruct (W w Rw Sw') as (R1 & S1 & L1 & A1). apply Rabs_le_inv in A1. split; [|lra].
    destruct (F _ R1 S1) as [F1 _]. rewrite L1 in F1. apply Rnot_lt_le. intros K. apply F1. lra.
  - rewrite Rabs_left in H by assumption. apply (nearest_bottom A s (l_ B t) L v ltac:(lia)); [|assumption].
    intros w Rw Sw'. destruct (W w Rw Sw') as (R1 & S1 & L1 & A1). apply Rabs_le_inv in A1. split; [|lra].
    destruct (F _ R1 S1) as [_ F1]. rewrite L1 in F1. apply Rnot_lt_le. intros K. apply F1. lra.
Qed.
Lemma rep_value : forall k n z, std_width n -> z <> 0 -> (exists u, (0 < u < 2 ^ (n - 1))%Z /\ cpm n u = coord k z) -> has_takum k n z.
Proof.
  intros k n z Sw Nz H. pose proof (std_range n Sw). destruct (sg_opp_rep n (Rlt_bool z 0) _ ltac:(lia) H) as (t & R & S & L).
  exists t. split; [apply R|]. rewrite (value_real n) by (assumption || lia). rewrite S, L. f_equal. symmetry. apply real_sg. assumption.
Qed.
Lemma log_rep : forall A B z j d, std_width A -> std_width B -> (A < B)%Z -> z <> 0 -> (0 <= d <= A - 4)%Z -> log_coord z = IZR j * bpow radix2 (- d) ->
  has_takum Logarithmic B z \/ 255 <= Rabs (coord Logarithmic z).
Proof.
  intros A B z j d SA SB L Nz Hd E. destruct (Rle_or_lt 255 (Rabs (coord Logarithmic z))) as [H|H]; [right; assumption|left].
  apply Rabs_lt_inv in H. apply rep_value; [assumption..|]. apply (rep_wide B _ (j * 2 ^ (B - 12 - d))); [unfold std_width in *; lia|assumption|].
  simpl coord. rewrite E, mult_IZR, IZR_pow2 by (unfold std_width in *; lia). rewrite Rmult_assoc, <- bpow_plus. f_equal. f_equal. lia.
Qed.
Lemma log_coord_value : forall n t x, std_width n -> is_intn n t -> value Logarithmic n t = Some x -> x <> 0 ->
  exists j, log_coord x = IZR j * bpow radix2 (- (n - 5)).
Proof.
  intros n t x Sw It V N. pose proof (std_range n Sw) as Hn. destruct (takum_cases n t It) as [->|[->|R]].
  - rewrite value_0 in V. congruence.
  - rewrite value_nar in V by lia. discriminate.
  - rewrite (value_real n) in V by (assumption || lia). injection V as <-. destruct (l_dyadic n t ltac:(lia) R) as (j & E). exists j. rewrite <- E.
    exact (coord_sg (t <? 0)%Z Logarithmic (l_ n t)).
Qed.
Lemma log_coord_mul : forall x y, x <> 0 -> y <> 0 -> log_coord (x * y) = log_coord x + log_coord y.
Proof. intros x y Nx Ny. unfold log_coord. rewrite Rabs_mult, ln_mult by (apply Rabs_pos_lt; assumption). ring. Qed.
Lemma log_coord_inv : forall x, x <> 0 -> log_coord (/ x) = - log_coord x.
Proof. intros x Nx. unfold log_coord. rewrite Rabs_inv, ln_Rinv by (apply Rabs_pos_lt; assumption). ring. Qed.

Theorem wider_multiplication : forall A B w r f g a b, widening Logarithmic A B w -> narrowing Logarithmic B A r ->
  log_multiplication A f -> log_multiplication B g -> is_intn A a -> is_intn A b ->
  exists a' b' c, w a = Val a' /\ w b = Val b' /\ g a' b' = Val c /\ r c = f a b.
Proof.
  intros A B w r f g a b Hw Hr Hf Hg Ia Ib. pose proof Hw as Hw'. apply widening_inv in Hw' as (SA & SB & LAB & _). pose proof (std_range A SA). pose proof (std_range B SB).
  destruct (widening_lossless _ A B w a Hw Ia) as (a' & Ea & Ia' & Va). destruct (widening_lossless _ A B w b Hw Ib) as (b' & Eb & Ib' & Vb).
  destruct (mul_faithful B g a' b' Hg Ia' Ib') as (c & Ec & Ic & Fc). destruct (mul_correct A f a b Hf ltac:(unfold std_width in *; lia) Ia Ib) as (t & Et & It & Rt).
  exists a', b', c. split; [assumption|]. split; [assumption|]. split; [assumption|]. rewrite Et. rewrite Va, Vb in Fc.
  assert (forall u, u = nar B -> exists v, r u = Val v /\ v = nar A) as KN.
  { intros u ->. destruct (narrowing_rounds _ B A r (nar B) Hr) as (v & Ev & _ & Rv); [unfold is_intn, nar; pose proof (pow2_pos (B - 1)); lia|].
    rewrite value_nar in Rv by lia. eauto. }
  destruct (value Logarithmic A a) as [x|] eqn:Vx; [destruct (value Logarithmic A b) as [y|] eqn:Vy|].
  2,3: destruct (KN c Fc) as (v & Ev & Q); rewrite Ev; congruence.
  assert (has_takum Logarithmic B (x * y) \/ 255 <= Rabs (coord Logarithmic (x * y)) \/ x * y = 0) as K.
  { destruct (Req_dec x 0) as [->|Nx]; [right; right; ring|]. destruct (Req_dec y 0) as [->|Ny]; [right; right; ring|].
    destruct (log_coord_value A a x SA Ia Vx Nx) as (j & Ej). destruct (log_coord_value A b y SA Ib Vy Ny) as (j' & Ej').
    destruct (log_rep A B (x * y) (j + j') (A - 5) SA SB LAB) as [K|K]; [apply Rmult_integral_contrapositive; auto|lia| |auto|auto].
    rewrite log_coord_mul, Ej, Ej', plus_IZR by assumption. ring. }
  assert (has_takum Logarithmic B (x * y) \/ 255 <= Rabs (coord Logarithmic (x * y))) as K'.
  { destruct K as [K|[K|K]]; auto. left. exists 0%Z. split; [unfold is_intn; pose proof (pow2_pos (B - 1)); lia|]. rewrite K. apply value_0. }
  destruct (narrow_exact _ A B r _ c Hr Fc K') as (v & Ev & Iv & Rv). rewrite Ev. f_equal. apply (rounds_unique Logarithmic A (x * y)); [lia|assumption..].
Qed.
Lemma narrow_nar : forall k A B r, narrowing k B A r -> r (nar B) = Val (nar A).
Proof.
  intros k A B r Hr. pose proof Hr as Hr'. apply narrowing_inv in Hr' as (SB & SA & _). pose proof (std_range A SA). pose proof (std_range B SB).
  destruct (narrowing_rounds _ B A r (nar B) Hr) as (v & Ev & _ & Rv); [unfold is_intn, nar; pose proof (pow2_pos (B - 1)); lia|].
  rewrite value_nar in Rv by lia. congruence.
Qed.
Lemma has_takum_0 : forall k n, std_width n -> has_takum k n 0.
Proof. intros k n Sw. pose proof (std_range n Sw). exists 0%Z. split; [unfold is_intn; pose proof (pow2_pos (n - 1)); lia|apply value_0]. Qed.
Lemma log_coord_pow : forall x e, x <> 0 -> log_coord (powerRZ x e) = IZR e * log_coord x.
Proof.
  intros x e Nx. unfold log_coord. assert (0 < Rabs x) as P by (apply Rabs_pos_lt; assumption).
  assert (Rabs (powerRZ x e) = powerRZ (Rabs x) e) as ->.
  { destruct e as [|p|p]; simpl; [apply Rabs_R1|symmetry; apply RPow_abs|rewrite Rabs_inv; f_equal; symmetry; apply RPow_abs]. }
  rewrite powerRZ_Rpower by assumption. unfold Rpower. rewrite ln_exp. ring.
Qed.
Theorem wider_division : forall A B w r f g a b, widening Logarithmic A B w -> narrowing Logarithmic B A r ->
  log_division A f -> log_division B g -> is_intn A a -> is_intn A b ->
  exists a' b' c, w a = Val a' /\ w b = Val b' /\ g a' b' = Val c /\ r c = f a b.
Proof.
  intros A B w r f g a b Hw Hr Hf Hg Ia Ib. pose proof Hw as Hw'. apply widening_inv in Hw' as (SA & SB & LAB & _). pose proof (std_range A SA). pose proof (std_range B SB).
  destruct (widening_lossless _ A B w a Hw Ia) as (a' & Ea & Ia' & Va). destruct (widening_lossless _ A B w b Hw Ib) as (b' & Eb & Ib' & Vb).
  destruct (div_faithful B g a' b' Hg Ia' Ib') as (c & Ec & Ic & Fc). destruct (div_correct A f a b Hf ltac:(unfold std_width in *; lia) Ia Ib) as (t & Et & It & Rt).
  exists a', b', c. split; [assumption|]. split; [assumption|]. split; [assumption|]. rewrite Et. rewrite Va, Vb in Fc.
  pose proof (narrow_nar _ A B r Hr) as KN.
  destruct (value Logarithmic A a) as [x|] eqn:Vx; [destruct (value Logarithmic A b) as [y|] eqn:Vy|]; [|congruence..].
  destruct Rt as [[Y0 ->]|[Ny Rt]]; destruct Fc as [[Y0' ->]|[Ny' Fc]]; try tauto.
  assert (has_takum Logarithmic B (x / y) \/ 255 <= Rabs (coord Logarithmic (x / y))) as K.
  { destruct (Req_dec x 0) as [->|Nx]; [left; unfold Rdiv; rewrite Rmult_0_l; apply has_takum_0; assumption|].
    destruct (log_coord_value A a x SA Ia Vx Nx) as (j & Ej). destruct (log_coord_value A b y SA Ib Vy Ny) as (j' & Ej').
    apply (log_rep A B (x / y) (j - j') (A - 5) SA SB LAB); [apply Rmult_integral_contrapositive; split; [assumption|apply Rinv_neq_0_compat; assumption]|lia|].
    unfold Rdiv. rewrite log_coord_mul, log_coord_inv, Ej, Ej', minus_IZR by (assumption || (apply Rinv_neq_0_compat; assumption)). ring. }
  destruct (narrow_exact _ A B r _ c Hr Fc K) as (v & Ev & Iv & Rv). rewrite Ev. f_equal. apply (rounds_unique Logarithmic A (x / y)); [lia|assumption..].
Qed.
Theorem wider_square_root : forall A B w r f g a, widening Logarithmic A B w -> narrowing Logarithmic B A r ->
  log_square_root A f -> log_square_root B g -> is_intn A a ->
  exists a' c, w a = Val a' /\ g a' = Val c /\ r c = f a.
Proof.
  intros A B w r f g a Hw Hr Hf Hg Ia. pose proof Hw as Hw'. apply widening_inv in Hw' as (SA & SB & LAB & _). pose proof (std_range A SA). pose proof (std_range B SB).
  destruct (widening_lossless _ A B w a Hw Ia) as (a' & Ea & Ia' & Va).
  destruct (sqrt_correct B g a' Hg Ia') as (c & Ec & Ic & Fc). destruct (sqrt_correct A f a Hf Ia) as (t & Et & It & Rt).
  exists a', c. split; [assumption|]. split; [assumption|]. rewrite Et. rewrite Va in Fc.
  pose proof (narrow_nar _ A B r Hr) as KN.
  destruct (value Logarithmic A a) as [x|] eqn:Vx; [|congruence].
  destruct Rt as [[Y0 ->]|[Ny Rt]]; destruct Fc as [[Y0' ->]|[Ny' Fc]]; try (congruence || lra).
  assert (has_takum Logarithmic B (sqrt x) \/ 255 <= Rabs (coord Logarithmic (sqrt x))) as K.
  { destruct (Req_dec x 0) as [->|Nx]; [left; rewrite sqrt_0; apply has_takum_0; assumption|].
    destruct (log_coord_value A a x SA Ia Vx Nx) as (j & Ej). assert (0 < sqrt x) as Sp by (apply sqrt_lt_R0; lra).
    apply (log_rep A B (sqrt x) j (A - 4) SA SB LAB); [lra|lia|].
    rewrite <- (sqrt_sqrt x) in Ej by lra. rewrite log_coord_mul in Ej by lra. replace (- (A - 4))%Z with (-1 + - (A - 5))%Z by lia.
    rewrite bpow_plus. change (bpow radix2 (-1)) with (/ 2). lra. }
  destruct (narrow_exact _ A B r _ c Hr (WidthSteps.rounds_faithful _ _ _ _ SB Fc) K) as (v & Ev & Iv & Rv). rewrite Ev. f_equal.
  apply (rounds_unique Logarithmic A (sqrt x)); [lia|assumption..].
Qed.
Theorem wider_integer_power : forall A B w r f g a e, widening Logarithmic A B w -> narrowing Logarithmic B A r ->
  log_integer_power A f -> log_integer_power B g -> is_intn A a -> is_int64 e ->
  exists a' c, w a = Val a' /\ g a' e = Val c /\ r c = f a e.
Proof.
  intros A B w r f g a e Hw Hr Hf Hg Ia Ie. pose proof Hw as Hw'. apply widening_inv in Hw' as (SA & SB & LAB & _). pose proof (std_range A SA). pose proof (std_range B SB).
  destruct (widening_lossless _ A B w a Hw Ia) as (a' & Ea & Ia' & Va).
  destruct (pow_correct B g a' e Hg Ia' Ie) as (c & Ec & Ic & Fc). destruct (pow_correct A f a e Hf Ia Ie) as (t & Et & It & Rt).
  exists a', c. split; [assumption|]. split; [assumption|]. rewrite Et. rewrite Va in Fc.
  pose proof (narrow_nar _ A B r Hr) as KN.
  destruct (value Logarithmic A a) as [x|] eqn:Vx; [|congruence].
  destruct Rt as [(Y0 & Y1 & ->)|[Ny Rt]]; destruct Fc as [(Y0' & Y1' & ->)|[Ny' Fc]]; try (congruence || (exfalso; destruct Ny'; [tauto|lia]) || (exfalso; destruct Ny; [tauto|lia])).
  assert (has_takum Logarithmic B (powerRZ x e) \/ 255 <= Rabs (coord Logarithmic (powerRZ x e))) as K.
  { destruct (Req_dec x 0) as [->|Nx].
    - left. assert (0 < e)%Z as Pe by (destruct Ny; [lra|assumption]). replace (powerRZ 0 e) with 0; [apply has_takum_0; assumption|].
      destruct e as [|p|p]; [lia| |lia]. simpl. rewrite pow_ne_zero; [reflexivity|lia].
    - destruct (log_coord_value A a x SA Ia Vx Nx) as (j & Ej).
      apply (log_rep A B _ (e * j) (A - 5) SA SB LAB); [apply powerRZ_NOR; assumption|lia|].
      rewrite log_coord_pow, Ej, mult_IZR by assumption. ring. }
  destruct (narrow_exact _ A B r _ c Hr (WidthSteps.rounds_faithful _ _ _ _ SB Fc) K) as (v & Ev & Iv & Rv). rewrite Ev. f_equal.
  apply (rounds_unique Logarithmic A (powerRZ x e)); [lia|assumption..].
Qed.

(** * Products of linear takums *)
Lemma code_of_l : forall n t, (6 <= n <= 64)%Z -> is_real_takum n t -> exists u, (0 < u < 2 ^ (n - 1))%Z /\ cpm n u = l_ n t.
Proof.
  intros n t Hn R. rewrite l_sg_cpm by assumption. pose proof (real_low_pos n t ltac:(lia) R) as B. unfold sg. destruct (t <? 0)%Z.
  - exists (2 ^ (n - 1) - low n t)%Z. split; [lia|]. rewrite cpm_opp by (assumption || lia). ring.
  - exists (low n t). split; [assumption|]. ring.
Qed.
Lemma l_regime : forall n t, (6 <= n <= 64)%Z -> is_real_takum n t ->
  exists j p, (0 <= p <= Z.max 0 (n - 5 - regZ (DRof (Zfloor (l_ n t)))))%Z /\ l_ n t = IZR j * bpow radix2 (- p).
Proof.
  intros n t Hn R. destruct (code_of_l n t Hn R) as (u & Bu & Eu). rewrite <- Eu. clear Eu.
  pose proof (G_cpm n Hn u ltac:(lia)) as Gu. unfold G in Gu. set (DR := DRof (Zfloor (cpm n u))) in *. set (q := (n - 5 - regZ DR)%Z) in *.
  destruct (Z.le_gt_cases 0 q) as [Q|Q].
  - exists (u - DR * 2 ^ (n - 5) + biasZ DR * 2 ^ q)%Z, q. split; [lia|].
    rewrite plus_IZR, minus_IZR, <- Gu. rewrite (mult_IZR (biasZ DR)), IZR_pow2 by lia.
    replace ((IZR (DR * 2 ^ (n - 5)) + (cpm n u - IZR (biasZ DR)) * bpow radix2 q - IZR (DR * 2 ^ (n - 5)) + IZR (biasZ DR) * bpow radix2 q) * bpow radix2 (- q))
      with (cpm n u * (bpow radix2 q * bpow radix2 (- q))) by ring.
    rewrite <- bpow_plus. replace (q + - q)%Z with 0%Z by lia. change (bpow radix2 0) with 1. ring.
  - exists (biasZ DR + (u - DR * 2 ^ (n - 5)) * 2 ^ (- q))%Z, 0%Z. split; [lia|]. change (bpow radix2 (- 0)) with 1.
    rewrite plus_IZR, mult_IZR, minus_IZR, IZR_pow2, <- Gu by lia.
    replace ((IZR (DR * 2 ^ (n - 5)) + (cpm n u - IZR (biasZ DR)) * bpow radix2 q - IZR (DR * 2 ^ (n - 5))) * bpow radix2 (- q))
      with ((cpm n u - IZR (biasZ DR)) * (bpow radix2 q * bpow radix2 (- q))) by ring.
    rewrite <- bpow_plus. replace (q + - q)%Z with 0%Z by lia. change (bpow radix2 0) with 1. ring.
Qed.
Definition regc (c : Z) : Z := regZ (DRof c).
Lemma regc_eq : forall c, (-255 <= c < 255)%Z -> regc c = Z.log2 (if (c <? 0)%Z then - c else c + 1).
Proof.
  intros c Hc. unfold regc, regZ, DRof. destruct (Z.ltb_spec c 0).
  - pose proof (Z.log2_nonneg (- c)). destruct (Z.ltb_spec (7 - Z.log2 (- c)) 8); lia.
  - pose proof (Z.log2_nonneg (c + 1)). destruct (Z.ltb_spec (8 + Z.log2 (c + 1)) 8); lia.
Qed.
Lemma regc_bound : forall c, (-255 <= c < 255)%Z -> (0 <= regc c <= 7 /\ - 2 ^ (regc c + 1) + 1 <= c <= 2 ^ (regc c + 1) - 2)%Z.
Proof.
  intros c Hc. destruct (DRof_spec c Hc) as [HD _]. pose proof (regZ_bounds _ HD) as B. fold (regc c) in B. split; [assumption|].
  rewrite regc_eq in * by assumption. destruct (Z.ltb_spec c 0).
  - pose proof (Z.log2_spec (- c) ltac:(lia)). rewrite <- Z.add_1_r in H0. pose proof (pow2_pos (Z.log2 (- c) + 1)). lia.
  - pose proof (Z.log2_spec (c + 1) ltac:(lia)). rewrite <- Z.add_1_r in H0. pose proof (pow2_pos (Z.log2 (c + 1) + 1)). lia.
Qed.
Lemma regc_le : forall c R, (-255 <= c < 255)%Z -> (0 <= R)%Z -> (- 2 ^ (R + 1) < c < 2 ^ (R + 1) - 1)%Z -> (regc c <= R)%Z.
Proof.
  intros c R Hc HR B. rewrite regc_eq by assumption. destruct (Z.ltb_spec c 0).
  - assert (Z.log2 (- c) < R + 1)%Z; [|lia]. apply Z.log2_lt_pow2; lia.
  - assert (Z.log2 (c + 1) < R + 1)%Z; [|lia]. apply Z.log2_lt_pow2; lia.
Qed.
Lemma regc_sum : forall a b c, (-255 <= a < 255)%Z -> (-255 <= b < 255)%Z -> (-255 <= c < 255)%Z -> (c = a + b \/ c = a + b + 1)%Z ->
  (regc c <= Z.max (regc a) (regc b) + 1)%Z.
Proof.
  intros a b c Ha Hb Hc E. destruct (regc_bound a Ha) as [Ra Ba]. destruct (regc_bound b Hb) as [Rb Bb]. set (R := Z.max (regc a) (regc b)).
  assert (2 ^ (regc a + 1) <= 2 ^ (R + 1))%Z by (apply Z.pow_le_mono_r; lia). assert (2 ^ (regc b + 1) <= 2 ^ (R + 1))%Z by (apply Z.pow_le_mono_r; lia).
  apply regc_le; [assumption|lia|]. replace (R + 1 + 1)%Z with (Z.succ (R + 1)) by lia. rewrite Z.pow_succ_r by lia. lia.
Qed.
Lemma lin_rep : forall A B a b x y, std_width A -> std_width B -> (A < B)%Z -> is_intn A a -> is_intn A b ->
  value Linear A a = Some x -> value Linear A b = Some y -> x <> 0 -> y <> 0 ->
  has_takum Linear B (x * y) \/ 255 <= Rabs (coord Linear (x * y)).
Proof.
  intros A B a b x y SA SB LAB Ia Ib Vx Vy Nx Ny. pose proof (std_range A SA). pose proof (std_range B SB).
  destruct (Rle_or_lt 255 (Rabs (coord Linear (x * y)))) as [H'|H']; [right; assumption|left].
  apply Rabs_lt_inv in H'. assert (x * y <> 0) as Nz by (apply Rmult_integral_contrapositive; auto). apply rep_value; [assumption..|].
  destruct (takum_cases A a Ia) as [->|[->|Ra]]; [rewrite value_0 in Vx; congruence|rewrite value_nar in Vx by lia; discriminate|].
  destruct (takum_cases A b Ib) as [->|[->|Rb]]; [rewrite value_0 in Vy; congruence|rewrite value_nar in Vy by lia; discriminate|].
  rewrite (value_real A) in Vx, Vy by (assumption || lia). injection Vx as Ex. injection Vy as Ey. change (E Linear (l_ A a)) with (Lin (l_ A a)) in Ex. change (E Linear (l_ A b)) with (Lin (l_ A b)) in Ey.
  destruct (l_regime A a ltac:(lia) Ra) as (ja & pa & Bpa & Ea). destruct (l_regime A b ltac:(lia) Rb) as (jb & pb & Bpb & Eb).
  assert (forall t, is_real_takum A t -> (-255 <= Zfloor (l_ A t) < 255)%Z) as FB.
  { intros t Rt. destruct (code_of_l A t ltac:(lia) Rt) as (u & Bu & <-). pose proof (cpm_bounds A ltac:(lia) u ltac:(lia)). split; [apply Zfloor_lub; lra|].
    apply lt_IZR. pose proof (Zfloor_lb (cpm A u)). lra. }
  pose proof (FB a Ra) as FBa. pose proof (FB b Rb) as FBb. clear FB.
  set (ha := Zfloor (l_ A a)) in *. set (hb := Zfloor (l_ A b)) in *.
  assert (Rabs (x * y) = Lin (l_ A a) * Lin (l_ A b)) as EA.
  { rewrite <- Ex, <- Ey, !Rabs_mult. fold (sg (a <? 0)%Z). fold (sg (b <? 0)%Z). rewrite !sg_abs, !Rmult_1_l, !Rabs_pos_eq by (left; apply Lin_pos). reflexivity. }
  pose proof (Lin_bounds (l_ A a)) as La. pose proof (Lin_bounds (l_ A b)) as Lb. fold ha in La. fold hb in Lb.
  assert (exists h, h = (mag radix2 (x * y) - 1)%Z /\ bpow radix2 h <= Rabs (x * y) < bpow radix2 (h + 1)) as (h & Dh & Hh).
  { eexists. split; [reflexivity|]. destruct (mag radix2 (x * y)) as [e He]. simpl. specialize (He Nz). replace (e - 1 + 1)%Z with e by lia. assumption. }
  assert (bpow radix2 (ha + hb) <= Rabs (x * y) < bpow radix2 (ha + hb + 2)) as Hs.
  { rewrite EA. replace (ha + hb + 2)%Z with ((ha + 1) + (hb + 1))%Z by lia. rewrite !(bpow_plus radix2 ha), (bpow_plus radix2 (ha + 1)).
    pose proof (bpow_gt_0 radix2 ha). pose proof (bpow_gt_0 radix2 hb). split; [apply Rmult_le_compat; lra|apply Rmult_le_0_lt_compat; lra]. }
  assert (h = ha + hb \/ h = ha + hb + 1)%Z as Eh.
  { assert (ha + hb < h + 1)%Z by (apply (lt_bpow radix2); lra). assert (h < ha + hb + 2)%Z by (apply (lt_bpow radix2); lra). lia. }
  assert (lin_coord (x * y) = IZR h + (Rabs (x * y) / bpow radix2 h - 1)) as Ec by (rewrite Dh; reflexivity).
  pose proof (bpow_gt_0 radix2 h) as Ph.
  assert (1 <= Rabs (x * y) / bpow radix2 h < 2) as Q.
  { rewrite bpow_plus in Hh. change (bpow radix2 1) with 2 in Hh. split;
    [apply (Rmult_le_reg_r (bpow radix2 h)); [assumption|]|apply (Rmult_lt_reg_r (bpow radix2 h)); [assumption|]]; unfold Rdiv; rewrite Rmult_assoc, Rinv_l by lra; lra. }
  assert (Zfloor (lin_coord (x * y)) = h) as Fh by (apply Zfloor_imp; rewrite plus_IZR, Ec; lra).
  simpl coord in *.
  apply (rep_regime B (lin_coord (x * y)) ((h - 1) * 2 ^ (pa + pb + 1) + (2 ^ pa * (1 - ha) + ja) * (2 ^ pb * (1 - hb) + jb) * 2 ^ (ha + hb + 1 - h)) (pa + pb + 1)); [lia|assumption| |].
  - rewrite Fh. fold (regc h). fold (regc ha) in Bpa. fold (regc hb) in Bpb.
    assert (-255 <= h < 255)%Z as HB by (rewrite <- Fh; apply floor_range; assumption).
    pose proof (regc_sum ha hb h FBa FBb HB Eh). destruct (regc_bound _ FBa) as [? _]. destruct (regc_bound _ FBb) as [? _]. destruct (regc_bound _ HB) as [? _].
    unfold std_width in *. lia.
  - rewrite Ec, EA. unfold Lin. fold ha. fold hb. rewrite Ea, Eb.
    assert (forall e, bpow radix2 (- e) = / bpow radix2 e) as BO by (intros; apply bpow_opp).
    rewrite plus_IZR, !mult_IZR, minus_IZR, !plus_IZR, !mult_IZR, !minus_IZR, !IZR_pow2 by lia.
    replace (ha + hb + 1 - h)%Z with (ha + (hb + (1 + - h)))%Z by lia. rewrite !bpow_plus, !BO. rewrite !bpow_plus.
    change (bpow radix2 1) with 2. pose proof (bpow_gt_0 radix2 pa). pose proof (bpow_gt_0 radix2 pb). field. lra.
Qed.
Theorem wider_linear_multiplication : forall A B w r g a b, widening Linear A B w -> narrowing Linear B A r ->
  linear_multiplication B g -> is_intn A a -> is_intn A b ->
  exists a' b' c t, w a = Val a' /\ w b = Val b' /\ g a' b' = Val c /\ r c = Val t /\ is_intn A t /\
  match value Linear A a, value Linear A b with
  | Some x, Some y => rounds Linear A (x * y) t
  | _, _ => t = nar A
  end.
Proof.
  intros A B w r g a b Hw Hr Hg Ia Ib. pose proof Hw as Hw'. apply widening_inv in Hw' as (SA & SB & LAB & _). pose proof (std_range A SA). pose proof (std_range B SB).
  destruct (widening_lossless _ A B w a Hw Ia) as (a' & Ea & Ia' & Va). destruct (widening_lossless _ A B w b Hw Ib) as (b' & Eb & Ib' & Vb).
  destruct (mul_lin_faithful B g Hg a' b' Ia' Ib') as (c & Ec & Ic & Fc). rewrite Va, Vb in Fc.
  pose proof (narrow_nar _ A B r Hr) as KN. exists a', b', c.
  destruct (value Linear A a) as [x|] eqn:Vx; [destruct (value Linear A b) as [y|] eqn:Vy|];
    [|exists (nar A); subst c; repeat (split; [assumption|]); split; [unfold is_intn, nar; pose proof (pow2_pos (A - 1)); lia|reflexivity]..].
  assert (has_takum Linear B (x * y) \/ 255 <= Rabs (coord Linear (x * y))) as K.
  { destruct (Req_dec x 0) as [->|Nx]; [left; rewrite Rmult_0_l; apply has_takum_0; assumption|].
    destruct (Req_dec y 0) as [->|Ny]; [left; rewrite Rmult_0_r; apply has_takum_0; assumption|].
    apply (lin_rep A B a b x y); assumption. }
  destruct (narrow_exact _ A B r _ c Hr Fc K) as (v & Ev & Iv & Rv). exists v. repeat (split; [assumption|]). assumption.
Qed.
Theorem wider_linear_same : forall A B w r f g a b, widening Linear A B w -> narrowing Linear B A r ->
  linear_multiplication A f -> (A = 8 \/ A = 16)%Z -> linear_multiplication B g -> is_intn A a -> is_intn A b ->
  exists a' b' c, w a = Val a' /\ w b = Val b' /\ g a' b' = Val c /\ r c = f a b.
Proof.
  intros A B w r f g a b Hw Hr Hf HA Hg Ia Ib. destruct (wider_linear_multiplication A B w r g a b Hw Hr Hg Ia Ib) as (a' & b' & c & t & Ea & Eb & Ec & Et & It & Rt).
  exists a', b', c. repeat (split; [assumption|]). rewrite Et. destruct (mul_lin_correct A f Hf HA a b Ia Ib) as (v & -> & Iv & Rv). f_equal.
  destruct (value Linear A a) as [x|]; [destruct (value Linear A b) as [y|]|]; [|congruence..].
  apply (rounds_unique Linear A (x * y)); [lia|assumption..].
Qed.
