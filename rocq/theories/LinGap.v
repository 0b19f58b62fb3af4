(** How near sums, quotients and square roots of linear takums can be to the
    points half-way between two takums. *)
From Coq Require Import ZArith Reals Bool Lia Lra List.
From Flocq Require Import Core.Core IEEE754.BinarySingleNaN.
From Verif Require Import CModel FloatModel WidthConv Codec Spec FloatSpec CodeFacts SpecFacts ValueFacts RoundFacts
  WidthFacts WidthProps FloatFacts DecodeFacts EncodeFacts PhiFacts Codec8Facts Machine Libm Conversion LinApi LinFacts
  LinDec LogProps MiscProps LogFacts PowFacts LinProps LinOps.
Local Open Scope R_scope.

(** the values of takums, 0 included *)
Definition grid (n : Z) (a : R) : Prop :=
  a = 0 \/ exists u, (0 < u < 2 ^ (n - 1))%Z /\ Rabs a = Lin (cpm n u).

(** number of fraction digits in the binade h *)
Definition Pn (n h : Z) : Z := if (n =? 32)%Z then (27 - regZ (DRof h))%Z else (n - 5)%Z.
Definition Gn (n h : Z) : Z := if (n =? 32)%Z then (Pn n h + 1)%Z else (n - 3)%Z.

Lemma multiple_small : forall k e x, x = IZR k * bpow radix2 e -> Rabs x < bpow radix2 e -> x = 0.
Proof.
  intros k e x -> H. rewrite Rabs_mult, (Rabs_pos_eq (bpow _ _)) in H by apply bpow_ge_0.
  pose proof (bpow_gt_0 radix2 e). assert (Rabs (IZR k) < 1) as K by nra. rewrite <- abs_IZR in K. apply lt_IZR in K.
  replace k with 0%Z by lia. ring.
Qed.

Definition mult_of (e : Z) (x : R) : Prop := exists k, x = IZR k * bpow radix2 e.
Lemma mult_of_le : forall e e' x, (e' <= e)%Z -> mult_of e x -> mult_of e' x.
Proof.
  intros e e' x He [k ->]. exists (k * 2 ^ (e - e'))%Z. rewrite mult_IZR, IZR_pow2, Rmult_assoc, <- bpow_plus by lia.
  do 2 f_equal. lia.
Qed.
Lemma mult_of_plus : forall e x y, mult_of e x -> mult_of e y -> mult_of e (x + y).
Proof. intros e x y [k ->] [l ->]. exists (k + l)%Z. rewrite plus_IZR. ring. Qed.
Lemma mult_of_opp : forall e x, mult_of e x -> mult_of e (- x).
Proof. intros e x [k ->]. exists (- k)%Z. rewrite opp_IZR. ring. Qed.
Lemma mult_of_abs : forall e x, mult_of e (Rabs x) -> mult_of e x.
Proof.
  intros e x H. unfold Rabs in H. destruct (Rcase_abs x); [|assumption].
  rewrite <- (Ropp_involutive x). apply mult_of_opp. assumption.
Qed.

Lemma cpm32_form : forall u, (0 < u < 2 ^ 31)%Z ->
  exists k, cpm 32 u = IZR k * bpow radix2 (- Pn 32 (Zfloor (cpm 32 u))) /\
  ((u < umax 32)%Z -> cpm 32 (u + 1) = cpm 32 u + bpow radix2 (- Pn 32 (Zfloor (cpm 32 u)))).
Proof.
  intros u Hu. destruct (u_split 32 ltac:(lia) u ltac:(simpl; lia)) as (DR & y & Eu & Hy & HD).
  change (32 - 5)%Z with 27%Z in *.
  pose proof (cpm_affine 32 ltac:(lia) DR y HD ltac:(simpl in *; lia) ltac:(simpl in *; lia)) as E.
  pose proof (regZ_bounds DR HD) as Hr. change (32 - 5)%Z with 27%Z in E. rewrite <- Eu in E.
  assert (cpm 32 u = IZR (biasZ DR * 2 ^ (27 - regZ DR) + y) * bpow radix2 (- (27 - regZ DR))) as E2.
  { rewrite E, plus_IZR, mult_IZR, IZR_pow2 by lia. rewrite Rmult_plus_distr_r, Rmult_assoc, <- bpow_plus.
    replace (27 - regZ DR + - (27 - regZ DR))%Z with 0%Z by lia. change (bpow radix2 0) with 1.
    replace (- (27 - regZ DR))%Z with (regZ DR - 27)%Z by lia. ring. }
  assert (Zfloor (cpm 32 u) = biasZ DR + y / 2 ^ (27 - regZ DR))%Z as Fl.
  { rewrite E2, Zfloor_div by lia. rewrite Z.div_add_l by (apply Z.pow_nonzero; lia). reflexivity. }
  assert (DRof (Zfloor (cpm 32 u)) = DR) as ED.
  { apply DRof_unique; [assumption|]. rewrite Fl. pose proof (bias_step DR HD) as BS.
    assert (0 < 2 ^ (27 - regZ DR))%Z by (apply Z.pow_pos_nonneg; lia).
    assert (0 <= y / 2 ^ (27 - regZ DR))%Z by (apply Z.div_pos; lia).
    assert (y / 2 ^ (27 - regZ DR) < 2 ^ regZ DR)%Z.
    { apply Z.div_lt_upper_bound; [assumption|]. rewrite <- Z.pow_add_r by lia. replace (27 - regZ DR + regZ DR)%Z with 27%Z by lia. lia. }
    lia. }
  unfold Pn. rewrite ED. change (32 =? 32)%Z with true. cbv iota. eexists; split; [exact E2|].
  intros Hu2. unfold umax in Hu2. simpl in Hu2. rewrite Eu. rewrite <- Z.add_assoc.
  pose proof (cpm_affine 32 ltac:(lia) DR (y + 1) HD ltac:(simpl in *; lia) ltac:(simpl in *; lia)) as E3. change (32 - 5)%Z with 27%Z in E3.
  rewrite E3, <- Eu, E, plus_IZR. replace (- (27 - regZ DR))%Z with (regZ DR - 27)%Z by lia. ring.
Qed.

Definition range255 : list Z := map (fun i => Z.of_nat i - 255)%Z (seq 0 510).
Definition for_all255 (P : Z -> Z -> bool) : bool := forallb (fun a => forallb (P a) range255) range255.
Lemma for_all255_use : forall P, for_all255 P = true -> forall a b, (-255 <= a <= 254)%Z -> (-255 <= b <= 254)%Z -> P a b = true.
Proof.
  intros P C a b Ha Hb. unfold for_all255 in C. rewrite forallb_forall in C.
  assert (forall h, (-255 <= h <= 254)%Z -> In h range255) as I.
  { intros h Hh. apply in_map_iff. exists (Z.to_nat (h + 255)). split; [lia|]. apply in_seq. lia. }
  specialize (C a (I a Ha)). rewrite forallb_forall in C. exact (C b (I b Hb)).
Qed.
Definition check32 (hM hb : Z) : bool := (hM - 52 <=? hb - Pn 32 hb)%Z || (hb + 3 <=? hM - Pn 32 hM)%Z.
Lemma check32_ok : for_all255 check32 = true. Proof. vm_compute. reflexivity. Qed.

Lemma check32_use : forall hM hb, (-255 <= hM <= 254)%Z -> (-255 <= hb <= 254)%Z ->
  (hM - 52 <= hb - Pn 32 hb \/ hb + 3 <= hM - Pn 32 hM)%Z.
Proof.
  intros hM hb HM Hb. pose proof (for_all255_use check32 check32_ok hM hb HM Hb) as C. unfold check32 in C.
  apply orb_prop in C. destruct C as [C|C]; apply Z.leb_le in C; [left|right]; exact C.
Qed.

Section H.
Variable n : Z.
Hypothesis Hn : n = 8%Z \/ n = 16%Z \/ n = 32%Z.
Let Hn' : (6 <= n <= 64)%Z. Proof. lia. Qed.

Lemma Pn_bounds : forall h, (-255 <= h < 255)%Z -> (0 <= Pn n h <= n - 5)%Z.
Proof. intros h Hh. unfold Pn. pose proof (regZ_7 h Hh). destruct (Z.eqb_spec n 32); lia. Qed.

Lemma grid_form : forall a, grid n a -> exists h,
  (-255 <= h <= 254)%Z /\ mult_of (h - Pn n h) a /\ Rabs a < bpow radix2 (h + 1).
Proof.
  intros a [-> | (u & Hu & E)].
  - exists 0%Z. split; [lia|]. split; [exists 0%Z; ring|]. rewrite Rabs_R0. apply bpow_gt_0.
  - exists (Zfloor (cpm n u)). pose proof (cpm_bounds n Hn' u ltac:(lia)) as B.
    assert (-255 <= Zfloor (cpm n u) < 255)%Z as FB.
    { split; [apply Zfloor_lub; apply B|]. apply lt_IZR. pose proof (Zfloor_lb (cpm n u)). lra. }
    pose proof (Pn_bounds _ FB) as PB.
    assert (exists k, cpm n u = IZR k * bpow radix2 (- Pn n (Zfloor (cpm n u)))) as [k Ek].
    { destruct (Z.eq_dec n 32) as [H32|H32].
      - rewrite H32. rewrite H32 in Hu. destruct (cpm32_form u ltac:(simpl in Hu; lia)) as (k & Ek & _). exists k. exact Ek.
      - unfold Pn. destruct (Z.eqb_spec n 32); [lia|]. apply cpm_dyadic; lia. }
    split; [lia|]. split.
    + apply mult_of_abs. rewrite E.
      destruct (Lin_dyadic k (Pn n (Zfloor (cpm n u))) ltac:(lia)) as (j & Hj & EL). rewrite <- Ek in EL.
      exists j. exact EL.
    + rewrite E. apply Lin_bounds.
Qed.

Lemma mid_gap : forall u, (0 < u < umax n)%Z ->
  halfway n u - Lin (cpm n u) >= bpow radix2 (hexp n u - Gn n (hexp n u)) /\
  Lin (cpm n (u + 1)) - halfway n u >= bpow radix2 (hexp n u - Gn n (hexp n u)).
Proof.
  intros u Hu. unfold umax in Hu.
  pose proof (Lin_slope (cpm n u) (mid n u)) as S1. pose proof (Lin_slope (mid n u) (cpm n (u + 1))) as S2.
  unfold halfway, hexp in *. pose proof (bpow_gt_0 radix2 (Zfloor (mid n u))) as B0.
  destruct (Z.eq_dec n 32) as [H32|H32].
  - rewrite H32 in *. change (2 ^ (32 - 1) - 1)%Z with 2147483647%Z in Hu.
    destruct (cpm32_form u ltac:(lia)) as (k & Ek & Es). change (umax 32) with 2147483647%Z in Es. specialize (Es ltac:(lia)).
    set (h0 := Zfloor (cpm 32 u)) in *.
    assert (-255 <= h0 < 255)%Z as FB.
    { pose proof (cpm_bounds 32 ltac:(lia) u ltac:(simpl; lia)) as B. unfold h0.
      split; [apply Zfloor_lub; apply B|]. apply lt_IZR. pose proof (Zfloor_lb (cpm 32 u)). lra. }
    assert (0 <= Pn 32 h0)%Z as P0 by (unfold Pn; change (32 =? 32)%Z with true; cbv iota; pose proof (regZ_7 h0 FB); lia).
    assert (mid 32 u = cpm 32 u + / 2 * bpow radix2 (- Pn 32 h0)) as EM by (unfold mid; rewrite Es; field).
    assert (Zfloor (mid 32 u) = h0) as EF.
    { rewrite EM. apply Zfloor_imp. pose proof (Zfloor_lb (cpm 32 u)) as L1. pose proof (Zfloor_ub (cpm 32 u)) as L2. fold h0 in L1, L2.
      pose proof (bpow_gt_0 radix2 (- Pn 32 h0)). split; [lra|].
      (* cpm is a multiple of 2^-P below h0 + 1 *)
      assert (cpm 32 u <= IZR (h0 + 1) - bpow radix2 (- Pn 32 h0)); [|lra].
      destruct (Rle_or_lt (cpm 32 u) (IZR (h0 + 1) - bpow radix2 (- Pn 32 h0))) as [|K]; [assumption|]. exfalso.
      assert (cpm 32 u - IZR (h0 + 1) = 0); [|rewrite plus_IZR in *; lra].
      apply (multiple_small (k - (h0 + 1) * 2 ^ Pn 32 h0) (- Pn 32 h0)).
      - rewrite minus_IZR, (mult_IZR (h0 + 1)), IZR_pow2 by lia. rewrite Rmult_minus_distr_r, Rmult_assoc, <- bpow_plus.
        replace (Pn 32 h0 + - Pn 32 h0)%Z with 0%Z by lia. change (bpow radix2 0) with 1. rewrite <- Ek. ring.
      - apply Rabs_def1; rewrite plus_IZR in *; lra. }
    rewrite EF in *. unfold Gn. change (32 =? 32)%Z with true. cbv iota.
    replace (h0 - (Pn 32 h0 + 1))%Z with (-1 + - Pn 32 h0 + h0)%Z by lia. rewrite !bpow_plus. change (bpow radix2 (-1)) with (/ 2).
    replace (mid 32 u - cpm 32 u) with (/ 2 * bpow radix2 (- Pn 32 h0)) in S1 by (rewrite EM; ring).
    replace (cpm 32 (u + 1) - mid 32 u) with (/ 2 * bpow radix2 (- Pn 32 h0)) in S2 by (rewrite EM, Es; field). lra.
  - unfold Gn. destruct (Z.eqb_spec n 32); [lia|].
    destruct (cpm_dyadic n u Hn' ltac:(lia)) as [a Ea]. destruct (cpm_dyadic n (u + 1) Hn' ltac:(lia)) as [b Eb].
    assert (cpm n u < cpm n (u + 1)) as L by (apply cpm_lt_iff; lia).
    pose proof (bpow_gt_0 radix2 (- (n - 5))) as P5.
    assert (bpow radix2 (- (n - 5)) <= cpm n (u + 1) - cpm n u) as D.
    { rewrite Ea, Eb in L |- *. assert (IZR a < IZR b) as Lab by nra. apply lt_IZR in Lab. assert (IZR (a + 1) <= IZR b) by (apply IZR_le; lia).
      rewrite plus_IZR in *. nra. }
    assert (bpow radix2 (- (n - 5)) = 2 * bpow radix2 (- (n - 4))) as E5.
    { replace (- (n - 5))%Z with (1 + - (n - 4))%Z by lia. rewrite bpow_plus. reflexivity. }
    assert (bpow radix2 (- (n - 4)) <= mid n u - cpm n u /\ bpow radix2 (- (n - 4)) <= cpm n (u + 1) - mid n u) as [D1 D2] by (unfold mid; lra).
    set (h := Zfloor (mid n u)) in *.
    assert (bpow radix2 (h - (n - 3)) <= bpow radix2 (h - (n - 4))) as B1 by (apply bpow_le; lia).
    assert (bpow radix2 (h - (n - 4)) = bpow radix2 (- (n - 4)) * bpow radix2 h) as B2 by (rewrite <- bpow_plus; f_equal; lia).
    split; [|nra].
    set (x := mid n u - bpow radix2 (- (n - 4))). pose proof (Lin_slope x (mid n u)) as S3.
    assert (Lin (cpm n u) <= Lin x) by (apply Lin_le; unfold x; lra).
    assert (bpow radix2 (h - 1) <= bpow radix2 (Zfloor x)) as B3.
    { apply bpow_le. apply Zfloor_lub. unfold x. rewrite minus_IZR. pose proof (Zfloor_lb (mid n u)). fold h in H0.
      assert (bpow radix2 (- (n - 4)) <= 1) by (change 1 with (bpow radix2 0); apply bpow_le; lia). lra. }
    assert (bpow radix2 (h - (n - 3)) = bpow radix2 (- (n - 4)) * bpow radix2 (h - 1)) as B4 by (rewrite <- bpow_plus; f_equal; lia).
    pose proof (bpow_gt_0 radix2 (- (n - 4))). replace (mid n u - x) with (bpow radix2 (- (n - 4))) in S3 by (unfold x; ring).
    nra.
Qed.

Lemma halfway_le_grid : forall a u, grid n a -> (0 < u < umax n)%Z ->
  bpow radix2 (hexp n u - Gn n (hexp n u)) <= Rabs (a - halfway n u).
Proof.
  intros a u Ha Hu. destruct (mid_gap u Hu) as [G1 G2]. pose proof (Lin_pos (cpm n u)) as LP.
  pose proof (bpow_gt_0 radix2 (hexp n u - Gn n (hexp n u))) as GP.
  assert (a <= 0 -> bpow radix2 (hexp n u - Gn n (hexp n u)) <= Rabs (a - halfway n u)) as Neg.
  { intros K. rewrite Rabs_minus_sym, Rabs_pos_eq by lra. lra. }
  destruct (Rle_or_lt a 0) as [K|K]; [auto|]. destruct Ha as [-> | (v & Hv & E)]; [lra|].
  rewrite Rabs_pos_eq in E by lra. unfold umax in Hu. destruct (Z_le_gt_dec v u) as [L|L].
  - assert (Lin (cpm n v) <= Lin (cpm n u)).
    { destruct (Z.eq_dec u v) as [->|]; [lra|]. apply Lin_le. left. apply cpm_lt_iff; lia. }
    rewrite Rabs_minus_sym, Rabs_pos_eq by lra. lra.
  - assert (Lin (cpm n (u + 1)) <= Lin (cpm n v)).
    { destruct (Z.eq_dec (u + 1) v) as [->|]; [lra|]. apply Lin_le. left. apply cpm_lt_iff; lia. }
    pose proof (bpow_gt_0 radix2 (hexp n u - Gn n (hexp n u))). rewrite Rabs_pos_eq by lra. lra.
Qed.


Lemma hexp_bounds' : forall u, (0 < u < umax n)%Z -> (-255 <= hexp n u <= 254)%Z.
Proof.
  intros u Hu. pose proof (hexp_bounds n Hn u Hu) as B. split; [lia|]. unfold umax in Hu.
  pose proof (cpm_bounds n Hn' u ltac:(lia)). pose proof (cpm_bounds n Hn' (u + 1) ltac:(lia)).
  assert (hexp n u < 255)%Z; [|lia]. apply lt_IZR. unfold hexp. pose proof (Zfloor_lb (mid n u)). unfold mid in *. lra.
Qed.

Lemma Qn_n : (n - 3 <= Qn n <= 53)%Z.
Proof. destruct Hn as [-> | [-> | ->]]; vm_compute; split; discriminate. Qed.

Lemma halfway_mult : forall u e, (0 < u < umax n)%Z -> (e <= hexp n u - (n - 4))%Z -> mult_of e (halfway n u).
Proof.
  intros u e Hu He. apply (mult_of_le (hexp n u - (n - 4))); [assumption|].
  destruct (halfway_dyadic n Hn u Hu) as (C & _ & E). exists C. exact E.
Qed.

Lemma half_pow : forall e, bpow radix2 e = 2 * bpow radix2 (e - 1).
Proof. intros e. replace e with (1 + (e - 1))%Z at 1 by lia. rewrite bpow_plus. reflexivity. Qed.

Lemma sum_gap_pos : forall a b u, grid n a -> grid n b -> (0 < u < umax n)%Z ->
  Rabs (a + b - halfway n u) <= bpow radix2 (hexp n u - Qn n) -> a + b = halfway n u.
Proof.
  intros a b u Ha Hb Hu H. pose proof (hexp_bounds' u Hu) as HM. pose proof Qn_n as HQ.
  set (h := hexp n u) in *.
  (* a summand that is no multiple of a small power is small *)
  assert (forall b, grid n b -> mult_of (h - Qn n + 1) b \/ Rabs b < bpow radix2 (h - Gn n h - 1)) as K.
  { clear a b Ha Hb H. intros b Hb. destruct (grid_form b Hb) as (hb & Bb & Mb & Lb).
    destruct (Z_le_gt_dec (h - Qn n + 1) (hb - Pn n hb)) as [L|L].
    - left. apply (mult_of_le (hb - Pn n hb)); assumption.
    - right. eapply Rlt_le_trans; [exact Lb|]. apply bpow_le.
      destruct Hn as [-> | [-> | ->]].
      + unfold Gn, Pn in *. change (8 =? 32)%Z with false in *. cbv iota in *. change (Qn 8) with 15%Z in *. lia.
      + unfold Gn, Pn in *. change (16 =? 32)%Z with false in *. cbv iota in *. change (Qn 16) with 44%Z in *. lia.
      + unfold Gn. change (32 =? 32)%Z with true. cbv iota. change (Qn 32) with 53%Z in *.
        destruct (check32_use h hb HM Bb); lia. }
  assert (forall a b, grid n a -> Rabs b < bpow radix2 (h - Gn n h - 1) -> bpow radix2 (h - Qn n) < Rabs (a + b - halfway n u)) as K2.
  { clear a b Ha Hb H. intros a b Ha Hb. pose proof (halfway_le_grid a u Ha Hu) as G. fold h in G.
    pose proof (half_pow (h - Gn n h)) as E.
    assert (bpow radix2 (h - Qn n) <= bpow radix2 (h - Gn n h - 1)) as B.
    { apply bpow_le. pose proof (Pn_bounds h ltac:(lia)). unfold Gn.
      destruct Hn as [-> | [-> | ->]]; [change (Qn 8) with 15%Z; simpl; lia|change (Qn 16) with 44%Z; simpl; lia|].
      change (Qn 32) with 53%Z. change (32 =? 32)%Z with true. cbv iota. lia. }
    replace (a + b - halfway n u) with ((a - halfway n u) + b) by ring.
    pose proof (Rabs_triang_inv (a - halfway n u) (- b)) as T. rewrite Rabs_Ropp in T.
    replace (a - halfway n u - - b) with (a - halfway n u + b) in T by ring. lra. }
  destruct (K a Ha) as [Ma|Sa].
  - destruct (K b Hb) as [Mb|Sb].
    + assert (mult_of (h - Qn n + 1) (a + b - halfway n u)) as [k Ek].
      { apply mult_of_plus; [apply mult_of_plus; assumption|]. apply mult_of_opp, halfway_mult; [assumption|]. fold h. lia. }
      assert (a + b - halfway n u = 0); [|lra]. apply (multiple_small _ _ _ Ek).
      eapply Rle_lt_trans; [exact H|]. apply bpow_lt. lia.
    + specialize (K2 a b Ha Sb). lra.
  - specialize (K2 b a Hb Sa). rewrite (Rplus_comm b a) in K2. lra.
Qed.

Lemma grid_opp : forall a, grid n a -> grid n (- a).
Proof. intros a [-> | (u & Hu & E)]; [left; ring|right; exists u; rewrite Rabs_Ropp; auto]. Qed.

Lemma sum_gap : forall a b u, grid n a -> grid n b -> (0 < u < umax n)%Z ->
  Rabs (Rabs (a + b) - halfway n u) <= bpow radix2 (hexp n u - Qn n) -> Rabs (a + b) = halfway n u.
Proof.
  intros a b u Ha Hb Hu H. unfold Rabs in H at 2. unfold Rabs. destruct (Rcase_abs (a + b)).
  - rewrite Ropp_plus_distr in *. apply sum_gap_pos; auto using grid_opp.
  - apply sum_gap_pos; auto.
Qed.

(** ** Products, quotients and square roots of takums of 8 and 16 bits *)
Lemma prod_gap : (n = 8 \/ n = 16)%Z -> forall a b u, grid n a -> grid n b -> a <> 0 -> b <> 0 -> (0 < u < umax n)%Z ->
  Rabs (Rabs (a * b) - halfway n u) <= bpow radix2 (hexp n u - Qn n) -> Rabs (a * b) = halfway n u.
Proof.
  intros H8 a b u Ga Gb Na Nb Hu H. destruct Ga as [|(v & Hv & Ea)]; [contradiction|]. destruct Gb as [|(w & Hw & Eb)]; [contradiction|].
  rewrite Rabs_mult in *. rewrite Ea, Eb in *. pose proof (hexp_bounds' u Hu) as HM.
  destruct (cpm_dyadic n v Hn' ltac:(lia)) as [i Ei]. destruct (cpm_dyadic n w Hn' ltac:(lia)) as [j Ej].
  destruct (Lin_dyadic i (n - 5) ltac:(lia)) as (A & HA & EA). destruct (Lin_dyadic j (n - 5) ltac:(lia)) as (B & HB & EB).
  rewrite <- Ei in EA. rewrite <- Ej in EB. set (ha := Zfloor (cpm n v)) in *. set (hb := Zfloor (cpm n w)) in *.
  set (h := hexp n u) in *. destruct (halfway_dyadic n Hn u Hu) as (C & HC & EC). fold h in EC.
  (* the product is less than 2^(h+2), so ha+hb <= h+1; and more than 2^(h-1) *)
  assert (bpow radix2 (h - Qn n) <= bpow radix2 (h - 1)) as B1 by (apply bpow_le; pose proof Qn_n; lia).
  pose proof (halfway_bounds n u) as [M1 M2]. fold h in M1, M2. pose proof (half_pow h) as E1. 
  assert (bpow radix2 (h + 1) = 2 * bpow radix2 h) as E2 by (rewrite (half_pow (h + 1)); do 2 f_equal; lia).
  pose proof (Rabs_le_inv _ _ H) as H'.
  assert (h - 2 < ha + hb + 1)%Z as L1.
  { pose proof (Lin_bounds (cpm n v)) as [_ V]. pose proof (Lin_bounds (cpm n w)) as [_ W]. fold ha in V. fold hb in W.
    assert (bpow radix2 (h - 1) < bpow radix2 (ha + 1 + (hb + 1))) as LL.
    { rewrite bpow_plus. pose proof (Lin_pos (cpm n v)). pose proof (Lin_pos (cpm n w)).
      apply Rle_lt_trans with (Lin (cpm n v) * Lin (cpm n w)); [lra|]. apply Rmult_gt_0_lt_compat; try lra; apply bpow_gt_0. }
    apply lt_bpow in LL. lia. }
  assert (mult_of (h - Qn n + 1) (Lin (cpm n v) * Lin (cpm n w) - halfway n u)) as [k Ek].
  { apply mult_of_plus; [|apply mult_of_opp, halfway_mult; [assumption|]; pose proof Qn_n; fold h; lia].
    apply (mult_of_le (ha - (n - 5) + (hb - (n - 5)))).
    - destruct H8 as [-> | ->]; [change (Qn 8) with 15%Z|change (Qn 16) with 44%Z]; lia.
    - exists (A * B)%Z. rewrite EA, EB, bpow_plus, mult_IZR. ring. }
  assert (Lin (cpm n v) * Lin (cpm n w) - halfway n u = 0); [|lra]. apply (multiple_small _ _ _ Ek).
  eapply Rle_lt_trans; [exact H|]. apply bpow_lt. lia.
Qed.

Lemma quot_gap : (n = 8 \/ n = 16)%Z -> forall a b u, grid n a -> grid n b -> a <> 0 -> b <> 0 -> (0 < u < umax n)%Z ->
  Rabs (Rabs (a / b) - halfway n u) <= bpow radix2 (hexp n u - Qn n) -> Rabs (a / b) = halfway n u.
Proof.
  intros H8 a b u Ga Gb Na Nb Hu H. destruct Ga as [|(v & Hv & Ea)]; [contradiction|]. destruct Gb as [|(w & Hw & Eb)]; [contradiction|].
  unfold Rdiv in *. rewrite Rabs_mult, (Rabs_inv b) in *. rewrite Ea, Eb in *. pose proof (hexp_bounds' u Hu) as HM.
  destruct (cpm_dyadic n v Hn' ltac:(lia)) as [i Ei]. destruct (cpm_dyadic n w Hn' ltac:(lia)) as [j Ej].
  destruct (Lin_dyadic i (n - 5) ltac:(lia)) as (A & HA & EA). destruct (Lin_dyadic j (n - 5) ltac:(lia)) as (B & HB & EB).
  rewrite <- Ei in EA. rewrite <- Ej in EB. set (ha := Zfloor (cpm n v)) in *. set (hb := Zfloor (cpm n w)) in *.
  set (h := hexp n u) in *. destruct (halfway_dyadic n Hn u Hu) as (C & HC & EC). fold h in EC.
  assert (bpow radix2 (h - Qn n) <= bpow radix2 (h - 1)) as B1 by (apply bpow_le; pose proof Qn_n; lia).
  pose proof (halfway_bounds n u) as [M1 M2]. fold h in M1, M2. pose proof (half_pow h) as E1.
  pose proof (Rabs_le_inv _ _ H) as H'. pose proof (Lin_pos (cpm n v)) as PV. pose proof (Lin_pos (cpm n w)) as PW.
  pose proof (Lin_bounds (cpm n v)) as [V0 V]. pose proof (Lin_bounds (cpm n w)) as [W0 W]. fold ha in V, V0. fold hb in W, W0.
  set (b' := Lin (cpm n w)) in *. set (a' := Lin (cpm n v)) in *.
  (* ha >= h + hb - 1 *)
  assert (h + hb - 1 < ha + 1)%Z as L1.
  { apply (lt_bpow radix2). apply Rle_lt_trans with a'; [|assumption].
    replace (h + hb - 1)%Z with (h - 1 + hb)%Z by lia. rewrite bpow_plus.
    replace a' with ((a' * / b') * b') by (field; lra). pose proof (bpow_ge_0 radix2 hb). pose proof (bpow_ge_0 radix2 (h - 1)).
    apply Rmult_le_compat; lra. }
  (* a - m b is a multiple of 2^e, and of absolute value < 2^e *)
  set (e := (h + hb - (n - 4) - (n - 5))%Z).
  assert (mult_of e (a' - halfway n u * b')) as [k Ek].
  { apply mult_of_plus; [|apply mult_of_opp].
    - apply (mult_of_le (ha - (n - 5))); [unfold e; lia|]. exists A. exact EA.
    - exists (C * B)%Z. rewrite EC, EB, mult_IZR. unfold e.
      replace (h + hb - (n - 4) - (n - 5))%Z with ((h - (n - 4)) + (hb - (n - 5)))%Z by lia. rewrite bpow_plus. ring. }
  assert (a' - halfway n u * b' = 0) as Z0.
  { apply (multiple_small _ _ _ Ek). replace (a' - halfway n u * b') with ((a' * / b' - halfway n u) * b') by (field; lra).
    rewrite Rabs_mult, (Rabs_pos_eq b') by lra.
    apply Rle_lt_trans with (bpow radix2 (h - Qn n) * b'); [apply Rmult_le_compat_r; lra|].
    apply Rlt_le_trans with (bpow radix2 (h - Qn n) * bpow radix2 (hb + 1)).
    - apply Rmult_lt_compat_l; [apply bpow_gt_0|assumption].
    - rewrite <- bpow_plus. apply bpow_le. unfold e. destruct H8 as [-> | ->]; [change (Qn 8) with 15%Z|change (Qn 16) with 44%Z]; lia. }
  replace (halfway n u) with (halfway n u * b' / b') by (field; lra). replace (halfway n u * b') with a' by lra. reflexivity.
Qed.

Lemma sqrt_gap : (n = 8 \/ n = 16)%Z -> forall a u, grid n a -> 0 < a -> (0 < u < umax n)%Z ->
  Rabs (Rabs (sqrt a) - halfway n u) <= bpow radix2 (hexp n u - Qn n) -> Rabs (sqrt a) = halfway n u.
Proof.
  intros H8 a u Ga Pa Hu H. destruct Ga as [|(v & Hv & Ea)]; [lra|]. pose proof (hexp_bounds' u Hu) as HM.
  rewrite Rabs_pos_eq in Ea by lra. rewrite (Rabs_pos_eq (sqrt a)) in * by apply sqrt_pos.
  destruct (cpm_dyadic n v Hn' ltac:(lia)) as [i Ei].
  destruct (Lin_dyadic i (n - 5) ltac:(lia)) as (A & HA & EA).
  rewrite <- Ei in EA. set (ha := Zfloor (cpm n v)) in *.
  set (h := hexp n u) in *. destruct (halfway_dyadic n Hn u Hu) as (C & HC & EC). fold h in EC.
  assert (bpow radix2 (h - Qn n) <= bpow radix2 (h - 1)) as B1 by (apply bpow_le; pose proof Qn_n; lia).
  pose proof (halfway_bounds n u) as [M1 M2]. fold h in M1, M2. pose proof (half_pow h) as E1.
  assert (bpow radix2 (h + 1) = 2 * bpow radix2 h) as E2 by (rewrite (half_pow (h + 1)); do 2 f_equal; lia).
  pose proof (Rabs_le_inv _ _ H) as H'. pose proof (Lin_bounds (cpm n v)) as [V0 V]. fold ha in V, V0. rewrite <- Ea in V, V0.
  pose proof (sqrt_lt_R0 a Pa) as PS. assert (sqrt a * sqrt a = a) as SS by (apply sqrt_sqrt; lra).
  set (s := sqrt a) in *. set (m := halfway n u) in *. pose proof (bpow_gt_0 radix2 h) as Ph.
  assert (2 * h - 2 < ha + 1)%Z as L1.
  { apply (lt_bpow radix2). apply Rle_lt_trans with a; [|assumption].
    replace (2 * h - 2)%Z with ((h - 1) + (h - 1))%Z by lia. rewrite bpow_plus, <- SS. pose proof (bpow_ge_0 radix2 (h - 1)).
    apply Rmult_le_compat; lra. }
  set (e := (2 * h - 2 * (n - 4))%Z).
  assert (mult_of e (a - m * m)) as [k Ek].
  { apply mult_of_plus; [|apply mult_of_opp].
    - apply (mult_of_le (ha - (n - 5))); [unfold e; lia|]. exists A. rewrite Ea. exact EA.
    - exists (C * C)%Z. rewrite EC, mult_IZR. unfold e.
      replace (2 * h - 2 * (n - 4))%Z with ((h - (n - 4)) + (h - (n - 4)))%Z by lia. rewrite bpow_plus. ring. }
  assert (a - m * m = 0) as Z0.
  { apply (multiple_small _ _ _ Ek). rewrite <- SS. replace (s * s - m * m) with ((s - m) * (s + m)) by ring.
    rewrite Rabs_mult, (Rabs_pos_eq (s + m)) by lra.
    apply Rle_lt_trans with (bpow radix2 (h - Qn n) * (s + m)); [apply Rmult_le_compat_r; lra|].
    apply Rlt_le_trans with (bpow radix2 (h - Qn n) * bpow radix2 (h + 3)).
    - apply Rmult_lt_compat_l; [apply bpow_gt_0|]. replace (h + 3)%Z with (3 + h)%Z by lia. rewrite bpow_plus. change (bpow radix2 3) with 8. lra.
    - rewrite <- bpow_plus. apply bpow_le. unfold e. destruct H8 as [-> | ->]; [change (Qn 8) with 15%Z|change (Qn 16) with 44%Z]; lia. }
  assert ((s - m) * (s + m) = 0) as Z1 by (replace ((s - m) * (s + m)) with (s * s - m * m) by ring; lra).
  apply Rmult_integral in Z1. destruct Z1; lra.
Qed.

End H.
