(** Reading what the calculator prints. *)
From Coq Require Import ZArith List Bool Ascii String Reals Lia Lra.
From Flocq Require Import Core.Core IEEE754.BinarySingleNaN.
From Verif Require Import CModel FloatModel Libm LibmSpec Spec SpecFacts CodeFacts ValueFacts RoundFacts NearFacts NearCode WidthFacts WidthProps WidthConv WidthApi LogApi LinApi Conversion Wrappers WrapApi WrapSpec FloatAcc WrapExact FloatFacts FloatSpec LinProps LogConv Machine RangeFacts MiscProps WrapBin Calculator CalcSpec CalcEval CalcStep CalcFacts CalcLiteral CalcNumeral Pythagoras CalcOps CalcRun CalcSession CalcWitness CalcExact CalcOps TextSpec TextFacts.
Import ListNotations.
Local Open Scope R_scope.

(** ** A takum of up to 16 bits is found from its value to 17 bits *)
Lemma near_exact16 : forall k n d y t v t', std_width n -> (n <= 16)%Z -> 0 <= d <= bpow radix2 (-17) ->
  rounds_nearly k n (code_error k n) y t -> Rabs (y - v) <= d * Rabs v -> is_intn n t' -> value k n t' = Some v -> t = t'.
Proof.
  intros k n d y t v t' Sw Hn Hd [Rf Rn] Hy It' V. pose proof (std_range n Sw) as Hr.
  assert (bpow radix2 (-17) <= / 1024) as Q by (replace (/ 1024) with (bpow radix2 (-10)) by (simpl; lra); apply bpow_le; lia).
  destruct (takum_cases n t' It') as [-> | [-> | R']].
  - rewrite value_0 in V. injection V as <-. rewrite Rabs_R0, Rmult_0_r, Rminus_0_r in Hy. assert (y = 0) as E by (apply Rabs_eq_R0; pose proof (Rabs_pos y); lra).
    destruct Rf as [[_ H]|[H _]]; [assumption|contradiction].
  - rewrite value_nar in V by lia. discriminate.
  - destruct (coord_of_value k n t' v Hr R' V) as (Nv & Cv & Sv). pose proof (Rabs_pos_lt v Nv) as Pv.
    assert (0 < y * v) as Ps.
    { destruct (Rlt_or_le 0 v) as [P|P]; [rewrite (Rabs_pos_eq v) in Hy by lra|rewrite (Rabs_left1 v) in Hy by lra]; apply Rabs_le_inv in Hy; nra. }
    assert (y <> 0) as Ny by (intros ->; lra). destruct (Rn Ny) as (L & NL & BL).
    rewrite (sign_mul y v Ps), Sv in NL. apply (near_self n ltac:(lia) t' L R') in NL; [assumption|]. rewrite <- Cv.
    pose proof (coord_near k v y d Nv Ny ltac:(lra) Hy) as Dc.
    assert (2 * d / (1 - d) <= 4 * d) as Dd. { apply Rmult_le_reg_r with (1 - d); [lra|]. unfold Rdiv. rewrite Rmult_assoc, Rinv_l by lra. nra. }
    set (q := bpow radix2 (- n)). assert (0 < q) as Pq by apply bpow_gt_0. assert (bpow radix2 (3 - n) = 8 * q) as E3 by (unfold q; replace (3 - n)%Z with (3 + - n)%Z by lia; rewrite bpow_plus; reflexivity).
    assert (bpow radix2 (-17) <= q * / 2) as Q1 by (unfold q; replace (/ 2) with (bpow radix2 (-1)) by (simpl; lra); rewrite <- bpow_plus; apply bpow_le; lia).
    assert (0 <= code_error k n <= q * / 1024) as Q2.
    { split; [apply code_error_rng|]. unfold q. replace (/ 1024) with (bpow radix2 (-10)) by (simpl; lra). rewrite <- bpow_plus. unfold code_error. apply Rle_trans with (bpow radix2 (match k with Linear => if (n =? 8)%Z then -23 else if (n =? 16)%Z then -51 else -64 | Logarithmic => if (n =? 64)%Z then -62 else -59 end)); [destruct k; apply Rle_refl|].
      apply bpow_le. destruct Sw as [-> | [-> | [-> | ->]]]; destruct k; cbn; lia. }
    rewrite E3. set (c := coord k v) in *. set (b := coord k y) in *.
    assert (Rabs b <= Rabs c + Rabs (b - c)) as T by (replace b with (c + (b - c)) at 1 by ring; apply Rabs_triang).
    assert (Rabs (L - c) <= Rabs (L - b) + Rabs (b - c)) as T2 by (replace (L - c) with ((L - b) + (b - c)) by ring; apply Rabs_triang).
    assert (code_error k n * (Rabs b + 1) <= q * / 1024 * (Rabs c + 2)) as T3 by (apply Rmult_le_compat; [apply Q2|pose proof (Rabs_pos b); lra|apply Q2|lra]).
    pose proof (Rmult_le_pos q (Rabs c) ltac:(lra) (Rabs_pos c)). lra.
Qed.

(** ** The float that is printed *)
Lemma value_bound : forall k n t v, (8 <= n <= 64)%Z -> is_real_takum n t -> value k n t = Some v -> bpow radix2 (-255) <= Rabs v <= bpow radix2 256 /\ Rabs (coord k v) <= 255.
Proof.
  intros k n t v Hn R V. destruct (coord_of_value k n t v Hn R V) as (Nv & Cv & _). pose proof (l_abs n t ltac:(lia) R) as L. rewrite <- Cv in L. split; [|assumption].
  apply Rabs_le_inv in L. rewrite <- (E_coord k v Nv).
  assert (E k (-255) <= E k (coord k v) <= E k 255) as [B1 B2] by (split; apply E_le; lra).
  assert (bpow radix2 (-255) <= E k (-255) /\ E k 255 <= bpow radix2 256) as [C1 C2].
  { destruct k; simpl E.
    - assert (bpow radix2 (-255) = exp (- (255 * ln 2))) as -> by (rewrite bpow_exp; f_equal; change (ln (IZR radix2)) with (ln 2); ring).
      assert (bpow radix2 256 = exp (256 * ln 2)) as -> by (rewrite bpow_exp; reflexivity). pose proof ln_lt_2 as K.
      split; apply Rlt_le, exp_increasing; lra.
    - rewrite (ErrorProps.Lin_binade (-255) (-255)), (ErrorProps.Lin_binade 255 255) by lra. change 256%Z with (1 + 255)%Z. rewrite (bpow_plus radix2 1 255). change (bpow radix2 1) with 2. pose proof (bpow_gt_0 radix2 255). split; [change (IZR (-255)) with (-255); lra|lra]. }
  lra.
Qed.
Lemma to80 : forall lm k n f t v, c99 lm -> to_float lm k n f80 f -> is_real_takum n t -> value k n t = Some v ->
  exists x, f t = Val x /\ is_finite x = true /\ Rabs (B2R x - v) <= bpow radix2 (-52) * Rabs v.
Proof.
  intros lm k n f t v C H. remember f80 as F eqn:EF. revert t v. destruct H as [n F f H|n F f H]; intros t v R V; subst F.
  - assert (std_width n) as Sw by (clear - H; remember f80 as F; destruct H; unfold std_width; tauto). pose proof (std_range n Sw) as Hn. destruct (value_bound _ _ _ _ Hn R V) as (B & L). destruct (coord_of_value _ _ _ _ Hn R V) as (Nv & _).
    destruct (log_to_accurate lm n f80 f t v C H V (proj1 R) Nv ltac:(discriminate)) as (y & Ey & Fy & Ay). exists y. split; [assumption|]. split; [assumption|].
    eapply Rle_trans; [exact Ay|]. apply Rmult_le_compat_r; [apply Rabs_pos|]. change (4 - fprec f80)%Z with (-60)%Z. change (-52)%Z with (-60 + 8)%Z. rewrite bpow_plus. apply Rmult_le_compat_l; [apply bpow_ge_0|]. change (bpow radix2 8) with 256. simpl coord in L. lra.
  - destruct (lin_to_exact n f80 f t H (or_introl eq_refl) (proj1 R)) as (y & Ey & Vy). rewrite V in Vy. destruct Vy as (F1 & F2 & _). exists y. split; [assumption|]. split; [assumption|].
    rewrite F2, Rminus_diag_eq, Rabs_R0 by reflexivity. apply Rmult_le_pos; [apply bpow_ge_0|apply Rabs_pos].
Qed.
Lemma from80 : forall lm k n f (y : flt f80), c99 lm -> from_float lm k n f80 f -> is_finite y = true -> exists t, f y = Val t /\ rounds_nearly k n (code_error k n) (B2R y) t.
Proof.
  intros lm k n f y C H. revert y. remember f80 as F eqn:EF. destruct H as [n F f H|n F f H]; intros y Fy; subst F.
  - eapply log_from_near; eassumption.
  - eapply lin_from_near; [eassumption|discriminate|assumption].
Qed.
(** ** Six digits *)
Lemma six_digits_error : forall x ds X, six_digits x ds X -> Rabs (IZR (decimal_value ds) * powerRZ 10 (X - 5) - x) <= 5 / 1000000 * x.
Proof.
  intros x ds X (L & A & H & e & m & B & D & C).
  assert (IZR (decimal_value ds) * powerRZ 10 (X - 5) = IZR m * powerRZ 10 (e - 5)) as ->.
  { destruct C as [[-> ->]|(-> & -> & ->)]; [reflexivity|]. replace (e + 1 - 5)%Z with (1 + (e - 5))%Z by lia. rewrite (powerRZ_add 10 1) by lra. change (10 ^ 5)%Z with 100000%Z. change (10 ^ 6)%Z with 1000000%Z. change (powerRZ 10 1) with (10 * 1). ring. }
  rewrite Rabs_minus_sym. eapply Rle_trans; [exact D|]. assert (powerRZ 10 (e - 5) = powerRZ 10 e * / 100000) as ->. { unfold Zminus. rewrite powerRZ_add by lra. f_equal. simpl. field. } lra.
Qed.

(** ** Numbers that are read *)
Lemma strtoll_low : forall s, (- 2 ^ 63 <= fst (strtoll s))%Z.
Proof.
  assert (forall w b s, (- 2 ^ 63 <= fst (after_sign w b s))%Z) as K.
  { intros w b s. assert (forall z : Z, (- 2 ^ 63 <= clamp64 z)%Z) as C by (intros z; unfold clamp64, INT64_MIN, INT64_MAX; lia).
    assert (forall base r, (- 2 ^ 63 <= fst (match r with c :: _ => if is_digit base c then let '(v, rest) := read_digits base 0 r in (clamp64 (if b then - v else v), match rest with [] => true | _ => false end) else (0%Z, match w with [] => true | _ => false end) | [] => (0%Z, match w with [] => true | _ => false end) end))%Z) as F.
    { intros base [|c r]; [cbn [fst]; lia|]. destruct (is_digit base c); [|cbn [fst]; lia]. destruct (read_digits base 0 (c :: r)). apply C. }
    unfold after_sign. destruct s as [|c0 [|c1 [|c2 s]]]; [exact (F 10%Z [])|destruct (ascii_dec c0 "0"); [exact (F 8%Z [c0])|exact (F 10%Z [c0])]|destruct (ascii_dec c0 "0"); [exact (F 8%Z [c0; c1])|exact (F 10%Z [c0; c1])]|destruct (ascii_dec c0 "0"); [|exact (F 10%Z (c0 :: c1 :: c2 :: s))]].
    destruct ((if ascii_dec c1 "x" then true else if ascii_dec c1 "X" then true else false) && is_digit 16 c2)%bool; [exact (F 16%Z (c2 :: s))|exact (F 8%Z (c0 :: c1 :: c2 :: s))]. }
  intros s. rewrite strtoll_signs. cbv zeta. destruct (skip_space s) as [|c s']; [apply K|]. destruct (ascii_dec c "-"); [apply K|]. destruct (ascii_dec c "+"); apply K.
Qed.
Lemma to_zero80 : forall lm k n f (x : flt f80), c99 lm -> to_float lm k n f80 f -> (8 <= n <= 64)%Z -> f 0%Z = Val x -> B2R x = 0.
Proof.
  intros lm k n f x C Hf Hr. revert x. remember f80 as F eqn:EF. destruct Hf as [n F f H|n F f H]; intros x Ex; subst F.
  - rewrite (log_to_0 lm n f80 f C H) in Ex. injection Ex as <-. reflexivity.
  - destruct (lin_to_exact n f80 f 0 H (or_introl eq_refl)) as (y & Ey & Vy). { clear - Hr. unfold is_intn. pose proof (Z.pow_pos_nonneg 2 (n - 1)). lia. } rewrite value_0 in Vy. rewrite Ex in Ey. injection Ey as <-. apply Vy.
Qed.
Section Trip.
Variable lm : libm.
Variable strtold : bytes -> flt f80 * bool.
Hypothesis lm_ok : c99 lm.
Hypothesis strtold_ok : reads_decimals strtold.

Lemma std_bits : forall T, std_width (bits_of T).
Proof. intros T. unfold std_width. destruct T; cbn; tauto. Qed.
(** an integer that the takum is *)
Lemma trip_integer : forall T t z text d v, (bits_of T <= 16)%Z -> is_intn (bits_of T) t -> value (kind_of T) (bits_of T) t = Some v -> 0 <= d <= bpow radix2 (-17) -> Rabs (IZR z - v) <= d * Rabs v ->
  (- 2 ^ 63 <= z < 2 ^ 63 - 1)%Z -> numeral text z -> is_literal lm strtold T text (mk_tvalue T t (Some z)).
Proof.
  intros T t z text d v Hn It V Hd A R N. destruct (numeral_not_reserved text z N) as [N1 N2]. assert (isf (fint f80 z) (IZR z)) as I by (apply isf_int80; lia).
  destruct (from80 lm (kind_of T) (bits_of T) (from_extended_float lm T) (fint f80 z) lm_ok (from_float_ext lm T) (proj1 I)) as (t' & E & F). rewrite (proj2 I) in F.
  pose proof (near_exact16 _ _ d _ t' v t (std_bits T) Hn Hd F A It V). subst t'.
  split; [assumption|]. split; [assumption|]. split; [reflexivity|]. exists (from_extended_float lm T), (fint f80 z). split; [apply from_float_ext|]. split; [|exact E]. cbn [vint].
  apply reads_integer; [|lia]. rewrite (strtoll_numeral text z N). f_equal. unfold clamp64, INT64_MIN, INT64_MAX. lia.
Qed.
(** a decimal number close to the takum *)
Lemma trip_decimal : forall T t text d v q, (bits_of T <= 16)%Z -> is_intn (bits_of T) t -> value (kind_of T) (bits_of T) t = Some v -> 0 <= d <= 6 / 1000000 -> Rabs (q - v) <= d * Rabs v ->
  bpow radix2 (-300) <= Rabs q <= bpow radix2 300 -> snd (strtoll text) = false -> decimal_text text q -> ~ In text reserved -> ~ is_letter text -> exists i, is_literal lm strtold T text (mk_tvalue T t i).
Proof.
  intros T t text d v q Hn It V Hd A B S D N1 N2.
  destruct (strtold_ok text q D) as (y & Ey & Fy & Ay).
  { right. change 2 with (IZR radix2). rewrite <- !bpow_powerRZ. assert (bpow radix2 (-16000) <= bpow radix2 (-300)) by (apply bpow_le; lia). assert (bpow radix2 300 <= bpow radix2 16000) by (apply bpow_le; lia). lra. }
  change 2 with (IZR radix2) in Ay. rewrite <- bpow_powerRZ in Ay.
  destruct (from80 lm (kind_of T) (bits_of T) (from_extended_float lm T) y lm_ok (from_float_ext lm T) Fy) as (t' & E & F).
  assert (t' = t) as ->.
  { refine (near_exact16 _ _ (bpow radix2 (-17)) _ t' v t (std_bits T) Hn _ F _ It V); [split; [apply bpow_ge_0|lra]|].
    assert (bpow radix2 (-62) <= / 16 * bpow radix2 (-17)) as K1 by (replace (/ 16 * bpow radix2 (-17)) with (bpow radix2 (-21)) by (change (-21)%Z with (-4 + -17)%Z; rewrite bpow_plus; f_equal; simpl; lra); apply bpow_le; lia).
    assert (6 / 1000000 <= 8 / 10 * bpow radix2 (-17)) as K2 by (simpl; lra).
    pose proof (Rabs_pos v) as Pv. pose proof (bpow_gt_0 radix2 (-17)) as Pw. pose proof (bpow_ge_0 radix2 (-62)) as Pu.
    assert (bpow radix2 (-17) <= 1) as K3 by (change 1 with (bpow radix2 0); apply bpow_le; lia).
    set (w := bpow radix2 (-17)) in *. set (u := bpow radix2 (-62)) in *. clearbody w u.
    assert (Rabs q <= 2 * Rabs v) as Q. { replace q with (q - v + v) at 1 by ring. eapply Rle_trans; [apply Rabs_triang|]. assert (d * Rabs v <= 1 * Rabs v) by (apply Rmult_le_compat_r; lra). lra. }
    replace (B2R y - v) with ((B2R y - q) + (q - v)) by ring. eapply Rle_trans; [apply Rabs_triang|].
    assert (u * Rabs q <= (/ 16 * w) * (2 * Rabs v)) by (apply Rmult_le_compat; try assumption; apply Rabs_pos). assert (d * Rabs v <= (8 / 10 * w) * Rabs v) by (apply Rmult_le_compat_r; lra). pose proof (Rmult_le_pos w (Rabs v) ltac:(lra) Pv). lra. }
  assert ((exists z, (-1 <= z <= 1)%Z /\ B2R y = IZR z) \/ (forall z, (-1 <= z <= 1)%Z -> B2R y <> IZR z)) as [(z & Hz & Ez)|Nz].
  { destruct (Req_dec (B2R y) (IZR (-1))) as [Q|Q1]; [left; eexists; split; [|exact Q]; lia|]. destruct (Req_dec (B2R y) (IZR 0)) as [Q|Q2]; [left; eexists; split; [|exact Q]; lia|]. destruct (Req_dec (B2R y) (IZR 1)) as [Q|Q3]; [left; eexists; split; [|exact Q]; lia|].
    right. intros z Hz. assert (z = -1 \/ z = 0 \/ z = 1)%Z as [-> | [-> | -> ] ] by lia; assumption. }
  - exists (Some z). split; [assumption|]. split; [assumption|]. split; [reflexivity|]. exists (from_extended_float lm T), y. split; [apply from_float_ext|]. split; [|exact E]. cbn [vint]. apply reads_float_integer; assumption.
  - exists None. split; [assumption|]. split; [assumption|]. split; [reflexivity|]. exists (from_extended_float lm T), y. split; [apply from_float_ext|]. split; [|exact E]. cbn [vint]. apply reads_float; try assumption. intros z Hz [_ Q]. exact (Nz z Hz Q).
Qed.
(** the number that a text stands for is close to the takum, and the text a
    numeral or read by strtold *)
Lemma percent_near : forall k n f t v x text, std_width n -> to_float lm k n f80 f -> is_real_takum n t -> value k n t = Some v -> f t = Val x -> percent_Lg x text ->
  exists q, Rabs (q - v) <= 501 / 100000000 * Rabs v /\ bpow radix2 (-300) <= Rabs q <= bpow radix2 300 /\
    ((exists z, numeral text z /\ q = IZR z /\ (-10 ^ 6 < z < 10 ^ 6)%Z) \/ (snd (strtoll text) = false /\ decimal_text text q /\ ~ In text reserved /\ ~ is_letter text)).
Proof.
  intros k n f t v x text Sw Hf R V Ex (unsigned & Et & P). pose proof (std_range n Sw) as Hn. destruct (to80 lm k n f t v lm_ok Hf R V) as (x' & Ex' & Fx & Ax). rewrite Ex in Ex'. injection Ex' as <-.
  destruct (value_bound k n t v Hn R V) as (Bv & _). destruct (coord_of_value k n t v Hn R V) as (Nv & _).
  assert (bpow radix2 (-52) <= / 1000000000) as K by (apply Rle_trans with (bpow radix2 (-30)); [apply bpow_le; lia|simpl; lra]).
  pose proof (bpow_ge_0 radix2 (-52)) as K0. set (u := bpow radix2 (-52)) in *. clearbody u. pose proof (Rabs_pos_lt v Nv) as Pv.
  assert (u * Rabs v <= / 1000000000 * Rabs v) as K1 by (apply Rmult_le_compat_r; lra).
  assert (0 < Rabs (B2R x)) as Px. { pose proof (Rabs_triang_inv v (v - B2R x)) as Q. replace (v - (v - B2R x)) with (B2R x) in Q by ring. rewrite (Rabs_minus_sym v (B2R x)) in Q. lra. }
  destruct P as [[Z _]|(ds & X & D & T)]; [rewrite Z, Rabs_R0 in Px; lra|]. pose proof (six_digits_error _ _ _ D) as De. destruct D as (L & A & H & _).
  pose proof (printed_shape (Bsign x) ds X unsigned L A H T) as Sh. cbv zeta in Sh. set (r := IZR (decimal_value ds) * powerRZ 10 (X - 5)) in *. set (q := signed_value (Bsign x) r) in *.
  assert (text = (if Bsign x then ["-"%char] else []) ++ unsigned) as Et' by (rewrite Et; destruct (Bsign x); reflexivity). rewrite <- Et' in Sh.
  assert (B2R x = signed_value (Bsign x) (Rabs (B2R x))) as Sx.
  { unfold signed_value. destruct x as [s|s| |s m e B]; try discriminate; [simpl in Px; rewrite Rabs_R0 in Px; lra|]. simpl Bsign. destruct s; simpl B2R; unfold F2R; simpl Defs.Fnum; simpl Defs.Fexp.
    - rewrite Rabs_left; [ring|]. apply Ropp_lt_cancel. rewrite Ropp_0, Ropp_mult_distr_l, <- opp_IZR. apply Rmult_lt_0_compat; [apply IZR_lt; reflexivity|apply bpow_gt_0].
    - rewrite Rabs_pos_eq; [ring|]. apply Rmult_le_pos; [apply IZR_le; discriminate|apply bpow_ge_0]. }
  assert (Rabs (q - B2R x) <= 5 / 1000000 * Rabs (B2R x)) as Dq.
  { rewrite Sx at 1. unfold q, signed_value. replace ((if Bsign x then -1 else 1) * r - (if Bsign x then -1 else 1) * Rabs (B2R x)) with ((if Bsign x then -1 else 1) * (r - Rabs (B2R x))) by ring.
    rewrite Rabs_mult. replace (Rabs (if Bsign x then -1 else 1)) with 1 by (destruct (Bsign x); [rewrite Rabs_left by lra; lra|rewrite Rabs_R1; reflexivity]). rewrite Rmult_1_l. exact De. }
  assert (Rabs (B2R x) <= Rabs v + / 1000000000 * Rabs v) as Ux. { replace (B2R x) with (B2R x - v + v) at 1 by ring. eapply Rle_trans; [apply Rabs_triang|]. lra. }
  assert (Rabs (q - v) <= 501 / 100000000 * Rabs v) as Dv. { replace (q - v) with ((q - B2R x) + (B2R x - v)) by ring. eapply Rle_trans; [apply Rabs_triang|]. lra. }
  exists q. split; [exact Dv|]. split; [|exact Sh].
  assert (Rabs v - Rabs (q - v) <= Rabs q <= Rabs v + Rabs (q - v)) as Bq.
  { split; [pose proof (Rabs_triang_inv v (v - q)) as Q; replace (v - (v - q)) with q in Q by ring; rewrite (Rabs_minus_sym v q) in Q; exact Q|]. replace q with (v + (q - v)) at 1 by ring. apply Rabs_triang. }
  assert (bpow radix2 (-300) <= / 2 * bpow radix2 (-255)). { replace (/ 2 * bpow radix2 (-255)) with (bpow radix2 (-256)) by (change (-256)%Z with (-1 + -255)%Z; rewrite bpow_plus; reflexivity). apply bpow_le. lia. }
  assert (2 * bpow radix2 256 <= bpow radix2 300). { replace (2 * bpow radix2 256) with (bpow radix2 257) by (change 257%Z with (1 + 256)%Z; rewrite bpow_plus; reflexivity). apply bpow_le. lia. }
  split; lra.
Qed.
Lemma text_trip : forall T v p text, (bits_of T <= 16)%Z -> vtype v = T -> is_intn (bits_of T) (vtakum v) -> number_of_calculator lm strtold T v -> shows lm v p -> p <> PNaR -> printed_text p text ->
  exists i, is_literal lm strtold T text (mk_tvalue T (vtakum v) i).
Proof.
  intros T [T' t i] p text Hn ET It NC Sh Np Pt. cbn [vtype vtakum vint] in *. subst T'. pose proof (std_bits T) as Sw. pose proof (std_range _ Sw) as Hr. pose proof (bpow_ge_0 radix2 (-17)) as P17.
  unfold shows in Sh. cbn [vtype vtakum vint] in Sh. destruct i as [z|].
  - subst p. cbn [printed_text] in Pt. exists (Some z). destruct NC as [(r & _ & E & _ & K)|(token & N1 & N2 & _ & f & x & Hf & Rd & Ef)].
    + cbn [vtakum vint] in *. subst r. destruct K as (Rz & V). refine (trip_integer T t z text 0 (IZR z) Hn It V _ _ _ Pt); [lra|rewrite Rminus_diag_eq, Rabs_R0 by reflexivity; lra|]. unfold recognised in Rz. destruct (kind_of T); lia.
    + cbn [vtakum vint] in *. inversion Rd as [z' Sz Lz E1 E2| |z' x' S0 Sx Fx Vx Hz E1 E2|]; subst.
      * destruct (numeral_not_reserved text z Pt) as [M1 M2]. split; [assumption|]. split; [assumption|]. split; [reflexivity|]. exists f, (fint f80 z). split; [assumption|]. split; [|assumption]. cbn [vint].
        apply reads_integer; [|assumption]. rewrite (strtoll_numeral text z Pt). f_equal. pose proof (strtoll_low token) as Lo. rewrite Sz in Lo. cbn [fst] in Lo. unfold clamp64, INT64_MIN, INT64_MAX. lia.
      * destruct (from80 lm _ _ f x lm_ok Hf Fx) as (t' & E & F). rewrite Ef in E. injection E as <-. rewrite Vx in F.
        assert (exists o, is_intn (bits_of T) o /\ value (kind_of T) (bits_of T) o = Some (IZR z)) as (o & Io & Vo).
        { assert (z = -1 \/ z = 0 \/ z = 1)%Z as [-> | [-> | -> ] ] by lia.
          - exists (- 2 ^ (bits_of T - 2))%Z. destruct (value_minus_one (kind_of T) _ Sw). tauto.
          - exists 0%Z. split; [|apply value_0]. clear - Hr. unfold is_intn. pose proof (Z.pow_pos_nonneg 2 (bits_of T - 1)). lia.
          - exists (2 ^ (bits_of T - 2))%Z. destruct (value_one_k (kind_of T) _ Sw). tauto. }
        assert (t = o) as -> by (refine (near_exact16 _ _ 0 _ t (IZR z) o Sw Hn _ F _ Io Vo); [lra|rewrite Rminus_diag_eq, Rabs_R0 by reflexivity; lra]).
        refine (trip_integer T o z text 0 (IZR z) Hn It Vo _ _ _ Pt); [lra|rewrite Rminus_diag_eq, Rabs_R0 by reflexivity; lra|lia].
  - destruct Sh as (f & x & Hf & Ex & ->). destruct (takum_cases _ t It) as [-> | [-> | R]].
    + (* zero *)
      destruct (is_nan x); [contradiction|]. exists (Some 0%Z). pose proof (to_zero80 lm _ _ f x lm_ok Hf Hr Ex) as Zx.
      cbn [printed_text] in Pt. destruct Pt as (unsigned & Et & [[_ ->]|(ds & X & (_ & _ & _ & e & m & Be & _) & _)]).
      * refine (trip_integer T 0 0 text 0 0 Hn It (value_0 _ _) _ _ _ _); [lra|rewrite Rminus_diag_eq, Rabs_R0 by reflexivity; lra|lia|].
        assert (digits [0%nat]) as D by (split; [constructor; [lia|constructor]|left; reflexivity]). rewrite Et. destruct (Bsign x); [apply (numeral_negative [0%nat] D)|apply (numeral_positive [0%nat] D)].
      * exfalso. rewrite Zx, Rabs_R0 in Be. pose proof (powerRZ_lt 10 e ltac:(lra)). lra.
    + exfalso. rewrite (to_nar lm lm_ok _ _ _ f Hf) in Ex. injection Ex as <-. apply Np. reflexivity.
    + destruct (is_nan x); [contradiction|]. cbn [printed_text] in Pt.
      pose proof (value_real (bits_of T) ltac:(lia) (kind_of T) t R) as V. set (v := _ * E (kind_of T) (l_ (bits_of T) t)) in V. clearbody v.
      destruct (percent_near _ _ f t v x text Sw Hf R V Ex Pt) as (q & Aq & Bq & C).
      assert (501 / 100000000 <= bpow radix2 (-17)) as K17 by (simpl; lra).
      destruct C as [(z & Nz & -> & Rz)|(S0 & D & N1 & N2)].
      * exists (Some z). refine (trip_integer T t z text (501 / 100000000) v Hn It V _ Aq _ Nz); [lra|lia].
      * refine (trip_decimal T t text (501 / 100000000) v q Hn It V _ Aq Bq S0 D N1 N2). lra.
Qed.
End Trip.
