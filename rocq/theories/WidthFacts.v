(** Facts about util.c and the width conversions. *)
From Coq Require Import ZArith Reals Bool Lia Lra.
From Flocq Require Import Core.Core.
From Verif Require Import CModel WidthConv Spec CodeFacts SpecFacts ValueFacts RoundFacts.
Local Open Scope Z_scope.

Definition std_width (n : Z) : Prop := n = 8 \/ n = 16 \/ n = 32 \/ n = 64.

Lemma pow2_even : forall k, 1 <= k -> Z.even (2 ^ k) = true.
Proof. intros k Hk. replace k with (Z.succ (k - 1)) by lia. rewrite Z.pow_succ_r by lia. apply Z.even_mul. Qed.

Lemma land_pow2 : forall a k, 0 <= k -> Z.land a (2 ^ k) = if Z.testbit a k then 2 ^ k else 0.
Proof.
  intros a k Hk. apply Z.bits_inj'. intros i Hi. rewrite Z.land_spec.
  rewrite Z.pow2_bits_eqb by assumption.
  destruct (Z.eqb_spec k i) as [<-|Hne].
  - destruct (Z.testbit a k); rewrite ?Z.pow2_bits_eqb, ?Z.eqb_refl, ?Z.bits_0 by assumption; reflexivity.
  - rewrite andb_false_r. destruct (Z.testbit a k); rewrite ?Z.bits_0; auto.
    rewrite Z.pow2_bits_eqb by assumption. symmetry. apply Z.eqb_neq. assumption.
Qed.

Lemma testbit_half : forall a k, 0 <= k ->
  Z.testbit a k = (2 ^ k <=? a mod 2 ^ (k + 1)).
Proof.
  intros a k Hk. rewrite Z.testbit_eqb by assumption.
  pose proof (pow2_pos k Hk) as Hp.
  rewrite Z.pow_add_r by lia. change (2 ^ 1) with 2.
  rewrite Z.rem_mul_r by lia.
  pose proof (Z.mod_pos_bound a (2 ^ k) Hp). pose proof (Z.mod_pos_bound (a / 2 ^ k) 2 ltac:(lia)).
  destruct (Z.eqb_spec ((a / 2 ^ k) mod 2) 1) as [E|E]; symmetry.
  - apply Z.leb_le. nia.
  - apply Z.leb_gt. nia.
Qed.

(** round half to even of a / 2^d *)
Definition rne (a d : Z) : Z := ZnearestE (IZR a / IZR (2 ^ d)).

Lemma rne_eq : forall a d, 1 <= d ->
  rne a d = a / 2 ^ d + b2z ((2 ^ (d - 1) <=? a mod 2 ^ d)
              && (negb (a mod 2 ^ d =? 2 ^ (d - 1)) || ((a / 2 ^ d) mod 2 =? 1))).
Proof.
  intros a d Hd. pose proof (pow2_pos d ltac:(lia)) as Hp. pose proof (pow2_pos (d - 1) ltac:(lia)) as Hp'.
  assert (2 ^ d = 2 * 2 ^ (d - 1)) as Eh.
  { replace d with (Z.succ (d - 1)) at 1 by lia. apply Z.pow_succ_r. lia. }
  pose proof (Z.div_mod a (2 ^ d) ltac:(lia)) as Ed. pose proof (Z.mod_pos_bound a (2 ^ d) Hp) as Hr.
  unfold rne. set (q := a / 2 ^ d) in *. set (r := a mod 2 ^ d) in *. set (h := 2 ^ (d - 1)) in *.
  assert (0 < IZR (2 ^ d))%R as HpR by (apply IZR_lt; lia).
  assert (IZR (2 ^ d) = 2 * IZR h)%R as EhR by (rewrite Eh, mult_IZR; reflexivity).
  assert (IZR a / IZR (2 ^ d) = IZR q + IZR r / IZR (2 ^ d))%R as EaR.
  { rewrite Ed, plus_IZR, mult_IZR. field. lra. }
  assert (0 <= IZR r < IZR (2 ^ d))%R as HrR by (split; [apply IZR_le|apply IZR_lt]; lia).
  assert (0 <= IZR r / IZR (2 ^ d) < 1)%R as Hf.
  { split; [apply Rmult_le_pos; [lra|left; apply Rinv_0_lt_compat; lra]|].
    apply Rmult_lt_reg_r with (IZR (2 ^ d)); [lra|]. field_simplify; lra. }
  assert (Zfloor (IZR a / IZR (2 ^ d)) = q) as Efl.
  { apply Zfloor_imp. rewrite plus_IZR. lra. }
  assert (Zfloor (IZR a / IZR (2 ^ d)) = Zceil (IZR a / IZR (2 ^ d)) \/
          Zceil (IZR a / IZR (2 ^ d)) = q + 1) as Ece.
  { destruct (Req_dec (IZR (Zfloor (IZR a / IZR (2 ^ d)))) (IZR a / IZR (2 ^ d))) as [K|K].
    - left. rewrite <- K at 2. symmetry. apply Zceil_IZR.
    - right. rewrite Zceil_floor_neq by assumption. lia. }
  unfold Znearest. rewrite Efl.
  replace (IZR a / IZR (2 ^ d) - IZR q)%R with (IZR r / IZR (2 ^ d))%R by lra.
  assert (forall b : bool, (r = h -> b = negb (Z.even q)) ->
     (match Rcompare (IZR r / IZR (2 ^ d)) (/ 2) with
      | Lt => q | Eq => if negb (Z.even q) then Zceil (IZR a / IZR (2 ^ d)) else q
      | Gt => Zceil (IZR a / IZR (2 ^ d)) end)
     = q + b2z ((h <=? r) && (negb (r =? h) || b))) as HH.
  { intros b Hb.
    assert (0 < IZR h)%R as HhR by (apply IZR_lt; lia).
    destruct (Z.lt_trichotomy r h) as [K|[K|K]].
    - rewrite Rcompare_Lt.
      2:{ apply Rmult_lt_reg_r with (IZR (2 ^ d)); [lra|]. apply IZR_lt in K. field_simplify; lra. }
      replace (h <=? r) with false by lia. cbv [andb b2z]. lia.
    - rewrite Rcompare_Eq.
      2:{ rewrite K, EhR. field. lra. }
      rewrite (Hb K). replace (h <=? r) with true by lia. replace (r =? h) with true by lia.
      cbv [negb orb andb b2z].
      assert (Zceil (IZR a / IZR (2 ^ d)) = q + 1).
      { destruct Ece as [E|E]; auto. exfalso. rewrite Efl in E.
        pose proof (Zceil_ub (IZR a / IZR (2 ^ d))) as U. rewrite <- E, EaR, K in U.
        assert (0 < IZR h / IZR (2 ^ d))%R by (apply Rmult_lt_0_compat; [lra|apply Rinv_0_lt_compat; lra]). lra. }
      destruct (Z.even q); lia.
    - rewrite Rcompare_Gt.
      2:{ apply Rmult_lt_reg_r with (IZR (2 ^ d)); [lra|]. apply IZR_lt in K. field_simplify; lra. }
      replace (h <=? r) with true by lia. replace (r =? h) with false by lia. cbv [negb orb andb b2z].
      destruct Ece as [E|E]; auto. exfalso. rewrite Efl in E.
      pose proof (Zceil_ub (IZR a / IZR (2 ^ d))) as U. rewrite <- E, EaR in U.
      assert (0 < IZR r) %R by (apply IZR_lt; lia).
      assert (0 < IZR r / IZR (2 ^ d))%R by (apply Rmult_lt_0_compat; [lra|apply Rinv_0_lt_compat; lra]). lra. }
  apply HH. intros _. rewrite Zmod_even.
  destruct (Z.even q); reflexivity.
Qed.

Lemma rne_add : forall a d k, 1 <= d -> Z.even k = true -> rne (a + k * 2 ^ d) d = rne a d + k.
Proof.
  intros a d k Hd Hk. pose proof (pow2_pos d ltac:(lia)). rewrite !rne_eq by assumption.
  rewrite Z.div_add, Z.mod_add by lia.
  rewrite (Zmod_even (a / 2 ^ d + k)), (Zmod_even (a / 2 ^ d)), Z.even_add, Hk.
  destruct (Z.even (a / 2 ^ d)); cbv [Bool.eqb]; lia.
Qed.

Lemma rne_mono : forall a b d, 0 <= d -> a <= b -> rne a d <= rne b d.
Proof.
  intros a b d Hd H. apply ZnearestE_mono. apply Rmult_le_compat_r; [|apply IZR_le; assumption].
  left. apply Rinv_0_lt_compat, IZR_lt, pow2_pos. assumption.
Qed.

Lemma rne_exact : forall k d, 0 <= d -> rne (k * 2 ^ d) d = k.
Proof.
  intros k d Hd. unfold rne. rewrite mult_IZR.
  replace (IZR k * IZR (2 ^ d) / IZR (2 ^ d))%R with (IZR k); [apply ZnearestE_IZR|].
  field. apply not_0_IZR. pose proof (pow2_pos d Hd). lia.
Qed.

Lemma to_u_small : forall n z, 0 <= z < 2 ^ n -> to_u n z = z.
Proof. intros. apply Z.mod_small. assumption. Qed.

Lemma shl_promoted_1 : forall n k, std_width n -> 0 <= k < n -> shl_promoted n 1 k = Val (2 ^ k).
Proof.
  intros n k Hn Hk. unfold shl_promoted, shl_int, shl_u, guard. rewrite Z.mul_1_l.
  destruct (Z.ltb_spec n 32).
  - assert (2 ^ k < 2 ^ 31) by (apply Z.pow_lt_mono_r; unfold std_width in Hn; lia).
    replace ((0 <=? k) && (k <? 32) && (0 <=? 1) && (2 ^ k <? 2 ^ 31)) with true by lia. reflexivity.
  - replace ((0 <=? k) && (k <? n)) with true by lia. rewrite to_u_small; [reflexivity|].
    pose proof (pow2_pos k ltac:(lia)). split; [lia|]. apply Z.pow_lt_mono_r; lia.
Qed.

(** util_round_uintN_to_number_of_bits is round half to even *)
Lemma util_round_eq : forall N input nb, std_width N -> 1 <= nb < N -> 0 <= input < 2 ^ N ->
  util_round_uint_to_number_of_bits N input nb = Val (rne input (N - nb)).
Proof.
  intros N a nb HN Hnb Ha. unfold util_round_uint_to_number_of_bits.
  assert (8 <= N <= 64) by (unfold std_width in HN; lia).
  rewrite !shl_promoted_1 by (assumption || lia). cbv beta iota delta [bind].
  set (d := N - nb). assert (1 <= d < N) by (unfold d; lia).
  pose proof (pow2_pos (d - 1) ltac:(lia)). pose proof (pow2_pos d ltac:(lia)).
  assert (2 ^ d < 2 ^ N) by (apply Z.pow_lt_mono_r; lia).
  assert (2 ^ (d - 1) < 2 ^ N) by (apply Z.pow_lt_mono_r; lia).
  rewrite (to_u_small N (2 ^ (d - 1))) by lia. rewrite (to_u_small N (2 ^ d - 1)) by lia.
  rewrite land_pow2 by lia.
  replace (2 ^ d - 1) with (Z.ones d) by (rewrite Z.ones_equiv; lia).
  rewrite Z.land_ones by lia.
  unfold shr_promoted, shr_u, guard. replace ((0 <=? d) && (d <? Z.max 32 N)) with true by lia.
  cbv beta iota. f_equal. rewrite to_u_small.
  - rewrite rne_eq by lia. f_equal. f_equal. f_equal.
    rewrite testbit_half by lia. replace (d - 1 + 1) with d by lia.
    destruct (2 ^ (d - 1) <=? a mod 2 ^ d) eqn:E.
    + destruct (Z.eqb_spec (2 ^ (d - 1)) 0); [lia|reflexivity].
    + reflexivity.
  - assert (0 <= a / 2 ^ d) by (apply Z.div_pos; lia).
    assert (a / 2 ^ d < 2 ^ nb).
    { apply Z.div_lt_upper_bound; [lia|]. rewrite <- pow2_split by lia. unfold d.
      replace (N - nb + nb) with N by lia. lia. }
    assert (2 ^ nb < 2 ^ N) by (apply Z.pow_lt_mono_r; lia).
    match goal with |- context [b2z ?b] => destruct b end; cbv [b2z]; lia.
Qed.

Lemma to_s_intn : forall n z, 1 <= n -> is_intn n (to_s n z).
Proof.
  intros n z Hn. unfold to_s, is_intn. pose proof (Z.mod_pos_bound (z + 2 ^ (n - 1)) (2 ^ n) (pow2_pos n ltac:(lia))).
  replace (2 ^ n) with (2 * 2 ^ (n - 1)) in *.
  2:{ rewrite <- Z.pow_succ_r by lia. f_equal. lia. }
  lia.
Qed.

Lemma to_s_eq : forall n z k t, 1 <= n -> is_intn n t -> z = t + k * 2 ^ n -> to_s n z = t.
Proof.
  intros n z k t Hn Ht ->. unfold to_s. unfold is_intn in Ht.
  assert (2 ^ n = 2 * 2 ^ (n - 1)) by (rewrite <- Z.pow_succ_r by lia; f_equal; lia).
  replace (t + k * 2 ^ n + 2 ^ (n - 1)) with (t + 2 ^ (n - 1) + k * 2 ^ n) by ring.
  rewrite Z.mod_add by lia. rewrite Z.mod_small by lia. lia.
Qed.

Lemma to_s_to_u : forall n t, 1 <= n -> is_intn n t -> to_s n (to_u n t) = t.
Proof.
  intros n t Hn Ht. apply to_s_eq with (k := - (t / 2 ^ n)); [assumption|assumption|].
  unfold to_u. pose proof (pow2_pos n ltac:(lia)). pose proof (Z.div_mod t (2 ^ n) ltac:(lia)). lia.
Qed.

Lemma to_u_to_s : forall n z, 1 <= n -> to_u n (to_s n z) = to_u n z.
Proof.
  intros n z Hn. unfold to_u, to_s. pose proof (pow2_pos n ltac:(lia)).
  rewrite Zminus_mod_idemp_l. f_equal. lia.
Qed.

(** ** Widening *)
Lemma expand_eq : forall FROM TO t, std_width FROM -> std_width TO -> FROM < TO -> is_intn FROM t ->
  convert_expand FROM TO t = Val (t * 2 ^ (TO - FROM)) /\ is_intn TO (t * 2 ^ (TO - FROM)).
Proof.
  intros A B t HA HB HAB Ht.
  assert (8 <= A <= 64 /\ 8 <= B <= 64) as Hb by (unfold std_width in *; lia).
  pose proof (pow2_pos (B - A) ltac:(lia)) as Hd. pose proof (pow2_pos A ltac:(lia)) as HpA.
  assert (2 ^ (A - 1) * 2 ^ (B - A) = 2 ^ (B - 1)) as E1 by (rewrite <- pow2_split by lia; f_equal; lia).
  assert (2 ^ A * 2 ^ (B - A) = 2 ^ B) as E2 by (rewrite <- pow2_split by lia; f_equal; lia).
  assert (is_intn B (t * 2 ^ (B - A))) as HI by (unfold is_intn in *; nia).
  split; [|assumption].
  pose proof (Z.mod_pos_bound t (2 ^ A) HpA) as Hm.
  pose proof (Z.div_mod t (2 ^ A) ltac:(lia)) as Edm.
  unfold convert_expand, shl_promoted, shl_int, shl_u, guard, to_u.
  assert (to_s B ((t mod 2 ^ A * 2 ^ (B - A)) mod 2 ^ B) = t * 2 ^ (B - A)) as Hfin.
  { rewrite Z.mod_small by nia.
    apply to_s_eq with (k := - (t / 2 ^ A)); [lia|assumption|]. rewrite <- E2. nia. }
  destruct (Z.ltb_spec B 32).
  - assert (t mod 2 ^ A * 2 ^ (B - A) < 2 ^ 31).
    { assert (2 ^ B <= 2 ^ 31) by (apply Z.pow_le_mono_r; lia). nia. }
    match goal with |- context [if ?b then _ else _] => replace b with true by lia end.
    cbv beta iota delta [bind]. rewrite Hfin. reflexivity.
  - match goal with |- context [if ?b then _ else _] => replace b with true by lia end.
    cbv beta iota delta [bind]. rewrite Z.mod_mod by (pose proof (pow2_pos B); lia). rewrite Hfin. reflexivity.
Qed.

Lemma low_mul : forall A B t, 1 <= A <= B -> low B (t * 2 ^ (B - A)) = low A t * 2 ^ (B - A).
Proof.
  intros A B t H. unfold low.
  replace (2 ^ (B - 1)) with (2 ^ (A - 1) * 2 ^ (B - A)) by (rewrite <- pow2_split by lia; f_equal; lia).
  pose proof (pow2_pos (B - A) ltac:(lia)). pose proof (pow2_pos (A - 1) ltac:(lia)).
  rewrite Zmult_mod_distr_r. reflexivity.
Qed.

Lemma Xn_mul : forall A B u, A <= B <= 64 -> Xn B (u * 2 ^ (B - A)) = Xn A u.
Proof.
  intros A B u H. unfold Xn, code64. f_equal.
  rewrite <- Z.mul_assoc, <- pow2_split by lia. f_equal. f_equal. lia.
Qed.

Lemma l_mul : forall A B t, 6 <= A <= B -> B <= 64 -> is_intn A t -> l_ B (t * 2 ^ (B - A)) = l_ A t.
Proof.
  intros A B t HA HB Ht. pose proof (pow2_pos (B - A) ltac:(lia)).
  assert (is_intn B (t * 2 ^ (B - A))).
  { unfold is_intn in *. replace (2 ^ (B - 1)) with (2 ^ (A - 1) * 2 ^ (B - A)) by (rewrite <- pow2_split by lia; f_equal; lia). nia. }
  rewrite !l_eq by (assumption || lia). rewrite low_mul, Xn_mul by lia.
  replace (t * 2 ^ (B - A) <? 0) with (t <? 0); [reflexivity|].
  destruct (Z.ltb_spec t 0); destruct (Z.ltb_spec (t * 2 ^ (B - A)) 0); nia.
Qed.

Lemma real_mul : forall A B t, 6 <= A <= B -> B <= 64 -> is_real_takum A t ->
  is_real_takum B (t * 2 ^ (B - A)).
Proof.
  intros A B t HA HB (Ht & H0 & H1). pose proof (pow2_pos (B - A) ltac:(lia)).
  unfold is_real_takum, is_intn, nar in *.
  replace (2 ^ (B - 1)) with (2 ^ (A - 1) * 2 ^ (B - A)) by (rewrite <- pow2_split by lia; f_equal; lia).
  repeat split; nia.
Qed.

Lemma value_mul : forall k A B t, 6 <= A <= B -> B <= 64 -> is_intn A t ->
  value k B (t * 2 ^ (B - A)) = value k A t.
Proof.
  intros k A B t HA HB Ht. destruct (takum_cases A t Ht) as [->|[->|Hr]].
  - rewrite Z.mul_0_l. rewrite !value_0. reflexivity.
  - unfold nar. replace (- 2 ^ (A - 1) * 2 ^ (B - A)) with (nar B).
    + rewrite value_nar by lia. fold (nar A). rewrite value_nar by lia. reflexivity.
    + unfold nar. rewrite Z.mul_opp_l, <- pow2_split by lia. f_equal. f_equal. lia.
  - pose proof (real_mul A B t HA HB Hr) as Hr'.
    rewrite (value_real B) by (assumption || lia). rewrite (value_real A) by (assumption || lia).
    rewrite l_mul by assumption.
    pose proof (pow2_pos (B - A) ltac:(lia)).
    replace (t * 2 ^ (B - A) <? 0) with (t <? 0); [reflexivity|].
    destruct (Z.ltb_spec t 0); destruct (Z.ltb_spec (t * 2 ^ (B - A)) 0); nia.
Qed.

(** ** Narrowing *)
Lemma enc_clamp : forall n x, 6 <= n <= 64 -> (-255 <= x < 255)%R ->
  enc n x = Z.max 1 (Z.min (umax n) (ZnearestE (G n x))).
Proof.
  intros n x Hn Hx. pose proof (two_pow_ge n Hn) as H32. unfold umax in *.
  destruct (enc_cases n x) as [(H1 & ->)|[(H1 & H2 & ->)|(H1 & E)]].
  - assert (ZnearestE (G n x) <= ZnearestE (G n (cpm n 1))) as K.
    { apply ZnearestE_mono.
      destruct H1 as [H1| ->]; [|lra]. left. apply (G_strict_mono n Hn); try lra.
      pose proof (cpm_bounds n Hn 1 ltac:(lia)). lra. }
    rewrite G_cpm, ZnearestE_IZR in K by lia. lia.
  - unfold umax in *. assert (ZnearestE (G n (cpm n (2 ^ (n - 1) - 1))) <= ZnearestE (G n x)) as K.
    { apply ZnearestE_mono.
      destruct H1 as [H1| <-]; [|lra]. left. apply (G_strict_mono n Hn); try lra.
      pose proof (cpm_bounds n Hn (2 ^ (n - 1) - 1) ltac:(lia)). lra. }
    rewrite G_cpm, ZnearestE_IZR in K by lia. lia.
  - pose proof (enc_bounds n Hn x) as Hb. unfold umax in Hb. lia.
Qed.

Lemma G_narrow : forall A B u, 6 <= B <= A -> A <= 64 -> 0 <= u < 2 ^ (A - 1) ->
  (G B (cpm A u) = IZR u / IZR (2 ^ (A - B)))%R.
Proof.
  intros A B u HB HA Hu. rewrite <- (G_cpm A ltac:(lia) u Hu). unfold G. cbv zeta.
  set (DR := DRof (Zfloor (cpm A u))). rewrite !mult_IZR, !IZR_pow2 by lia.
  set (y := (cpm A u - IZR (biasZ DR))%R).
  replace (A - 5) with (A - B + (B - 5)) by lia.
  replace (A - B + (B - 5) - regZ DR) with (A - B + (B - 5 - regZ DR)) by lia.
  rewrite !bpow_plus. field. apply Rgt_not_eq, bpow_gt_0.
Qed.

Lemma reduce_eq : forall FROM TO t, std_width FROM -> std_width TO -> TO < FROM -> is_real_takum FROM t ->
  convert_reduce FROM TO t = Val (asm TO (t <? 0) (enc TO (cpm FROM (low FROM t)))).
Proof.
  intros A B t HA HB HAB Hr. pose proof Hr as [Ht _].
  assert (8 <= A <= 64 /\ 8 <= B <= 64) as Hb by (unfold std_width in *; lia).
  pose proof (real_low_pos A t ltac:(lia) Hr) as Hu.
  pose proof (cpm_bounds A ltac:(lia) (low A t) ltac:(lia)) as Hcb.
  rewrite enc_clamp by (lia || assumption). rewrite G_narrow by lia. fold (rne (low A t) (A - B)).
  set (u := low A t) in *. set (s := t <? 0). set (d := A - B).
  pose proof (pow2_pos (A - 1) ltac:(lia)) as HpA. pose proof (pow2_pos (B - 1) ltac:(lia)) as HpB.
  assert (2 ^ A = 2 * 2 ^ (A - 1)) as E1 by (rewrite <- Z.pow_succ_r by lia; f_equal; lia).
  assert (2 ^ B = 2 * 2 ^ (B - 1)) as E2 by (rewrite <- Z.pow_succ_r by lia; f_equal; lia).
  assert (2 ^ (A - 1) = 2 ^ (B - 1) * 2 ^ d) as E3 by (rewrite <- pow2_split by lia; f_equal; lia).
  assert (128 <= 2 ^ (B - 1)) as H128 by (change 128 with (2 ^ 7); apply Z.pow_le_mono_r; lia).
  assert (to_u A t = u + b2z s * 2 ^ (A - 1)) as Ein.
  { unfold to_u, u. rewrite low_cases by (assumption || lia). unfold s, is_intn in *.
    destruct (Z.ltb_spec t 0); cbv [b2z].
    - rewrite (mod_mul_small t (2 ^ A) (-1) (t + 2 ^ A)) by lia. lia.
    - rewrite Z.mod_small by lia. lia. }
  unfold convert_reduce. rewrite Ein.
  rewrite util_round_eq by (try assumption; try lia; destruct s; cbv [b2z]; lia).
  cbv beta iota delta [bind]. fold d.
  assert (rne (u + b2z s * 2 ^ (A - 1)) d = rne u d + b2z s * 2 ^ (B - 1)) as Er.
  { rewrite E3, Z.mul_assoc. apply rne_add; [unfold d; lia|]. rewrite Z.even_mul, pow2_even by lia. apply orb_true_r. }
  rewrite Er. set (q := rne u d).
  assert (0 <= q <= 2 ^ (B - 1)) as Hq.
  { unfold q. split.
    - rewrite <- (rne_exact 0 d) by (unfold d; lia). apply rne_mono; unfold d; lia.
    - rewrite <- (rne_exact (2 ^ (B - 1)) d) by (unfold d; lia). apply rne_mono; [unfold d; lia|]. lia. }
  f_equal. unfold NaR, umax.
  assert (forall z v, is_intn B v -> (exists k, z = v + k * 2 ^ B) -> to_s B (to_u B z) = v) as Hfin.
  { intros z v Hv [k ->]. unfold to_u. rewrite Z.mod_add by lia. apply (to_s_to_u B v ltac:(lia) Hv). }
  assert (to_u A t <> 0) as Hin0.
  { rewrite Ein. destruct s; cbv [b2z]; lia. }
  destruct Hr as (_ & Ht0 & HtN). unfold nar in HtN.
  assert ((t =? - 2 ^ (A - 1)) = false) as EN by lia. rewrite EN.
  rewrite Ein in Hin0.
  assert ((u + b2z s * 2 ^ (A - 1) =? 0) = false) as E0 by lia. rewrite E0.
  cbv [negb]. rewrite !andb_true_r.
  assert (is_intn B (asm B s (Z.max 1 (Z.min (2 ^ (B - 1) - 1) q)))) as HI by (apply asm_intn; lia).
  apply Hfin; [assumption|]. unfold asm.
  destruct (Z.eq_dec q 0) as [Hq0|Hq0]; [|destruct (Z.eq_dec q (2 ^ (B - 1))) as [Hq1|Hq1]].
  - rewrite Hq0. unfold s. destruct (t <? 0); cbv beta iota delta [b2z].
    + assert (to_u B (0 + 1 * 2 ^ (B - 1)) = 2 ^ (B - 1)) as -> by (rewrite to_u_small; lia).
      rewrite (to_s_eq B _ 1 (- 2 ^ (B - 1))) by (try (unfold is_intn); lia).
      rewrite Z.eqb_refl. replace (2 ^ (B - 1) =? 0) with false by lia. exists 1. lia.
    + replace (0 + 0 * 2 ^ (B - 1)) with 0 by lia.
      assert (to_u B 0 = 0) as -> by (apply Zmod_0_l).
      rewrite (to_s_eq B _ 0 0) by (try (unfold is_intn); lia).
      replace (0 =? - 2 ^ (B - 1)) with false by lia. exists 0. simpl (0 =? 0). cbv iota. lia.
  - rewrite Hq1. unfold s. destruct (t <? 0); cbv beta iota delta [b2z].
    + assert (to_u B (2 ^ (B - 1) + 1 * 2 ^ (B - 1)) = 0) as ->.
      { unfold to_u. replace (2 ^ (B - 1) + 1 * 2 ^ (B - 1)) with (1 * 2 ^ B) by lia. apply Z_mod_mult. }
      rewrite (to_s_eq B _ 0 0) by (try (unfold is_intn); lia).
      replace (0 =? - 2 ^ (B - 1)) with false by lia. exists 0. simpl (0 =? 0). cbv iota. lia.
    + assert (to_u B (2 ^ (B - 1) + 0 * 2 ^ (B - 1)) = 2 ^ (B - 1)) as ->.
      { unfold to_u. apply (mod_mul_small _ _ 0); lia. }
      rewrite (to_s_eq B _ 1 (- 2 ^ (B - 1))) by (try (unfold is_intn); lia).
      rewrite Z.eqb_refl. replace (2 ^ (B - 1) =? 0) with false by lia. exists 0. lia.
  - assert (0 < q < 2 ^ (B - 1)) as Hq2 by lia.
    assert (to_u B (q + b2z s * 2 ^ (B - 1)) = q + b2z s * 2 ^ (B - 1)) as ->.
    { apply Z.mod_small. destruct s; cbv [b2z]; lia. }
    unfold s. destruct (t <? 0); cbv beta iota delta [b2z].
    + rewrite (to_s_eq B _ 1 (q - 2 ^ (B - 1))) by (try (unfold is_intn); lia).
      replace (q - 2 ^ (B - 1) =? - 2 ^ (B - 1)) with false by lia.
      replace (q + 1 * 2 ^ (B - 1) =? 0) with false by lia. exists 1. cbv iota. lia.
    + rewrite (to_s_eq B _ 0 q) by (try (unfold is_intn); lia).
      replace (q =? - 2 ^ (B - 1)) with false by lia.
      replace (q + 0 * 2 ^ (B - 1) =? 0) with false by lia. exists 0. cbv iota. lia.
Qed.
