(** Errors of sums and products in any order (C134, C135). *)
From Coq Require Import ZArith Reals Bool List Lia Lra Permutation.
From Flocq Require Import Core.Core.
From Verif Require Import CModel FloatModel Spec CodeFacts SpecFacts ValueFacts RoundFacts WidthFacts WidthProps LogApi LogProps LinOps LinApi LinArith MiscProps RangeFacts ErrorSpec ErrorProps ErrorApi Sums Arith Wrappers ListSpec Lists TreeSpec.
Import ListNotations.
Local Open Scope R_scope.

Lemma sum_app : forall xs ys, sum (xs ++ ys) = sum xs + sum ys.
Proof. intros xs ys. unfold sum. induction xs as [|x xs IH]; simpl; [ring|]. rewrite IH. ring. Qed.
Lemma mag_app : forall xs ys, sum_of_magnitudes (xs ++ ys) = sum_of_magnitudes xs + sum_of_magnitudes ys.
Proof. intros xs ys. unfold sum_of_magnitudes. induction xs as [|x xs IH]; simpl; [ring|]. rewrite IH. ring. Qed.
Lemma product_app : forall xs ys, product (xs ++ ys) = product xs * product ys.
Proof. intros xs ys. unfold product. induction xs as [|x xs IH]; simpl; [ring|]. rewrite IH. ring. Qed.
Lemma mag_pos : forall xs, 0 <= sum_of_magnitudes xs.
Proof. unfold sum_of_magnitudes. induction xs as [|y l IH]; simpl; [lra|]. pose proof (Rabs_pos y). lra. Qed.
Lemma sum_le_mag : forall xs, Rabs (sum xs) <= sum_of_magnitudes xs.
Proof. unfold sum, sum_of_magnitudes. induction xs as [|y l IH]; simpl; [rewrite Rabs_R0; lra|]. eapply Rle_trans; [apply Rabs_triang|]. lra. Qed.
Lemma values_app : forall k n l r xs, have_values k n (l ++ r) xs -> exists ys zs, xs = ys ++ zs /\ have_values k n l ys /\ have_values k n r zs.
Proof. intros k n l r xs H. apply Forall2_app_inv_l in H as (ys & zs & A & B & ->). eauto. Qed.
Lemma pow_mono : forall u i j, 0 < u -> (i <= j)%nat -> 1 <= (1 + u) ^ i <= (1 + u) ^ j.
Proof. intros u i j Hu H. split; [apply pow_R1_Rle; lra|apply Rle_pow; [lra|assumption]]. Qed.
Lemma pow_anti : forall u i j, 0 < u < 1 -> (i <= j)%nat -> 0 < (1 - u) ^ j <= (1 - u) ^ i.
Proof.
  intros u i j Hu H. split; [apply pow_lt; lra|]. replace j with (i + (j - i))%nat by lia. rewrite pow_add. assert (0 < (1 - u) ^ i) by (apply pow_lt; lra).
  assert ((1 - u) ^ (j - i) <= 1). { apply Rle_trans with (1 ^ (j - i)); [apply pow_incr; lra|rewrite pow1; lra]. }
  nra.
Qed.

Theorem tree_sum : forall n f, linear_addition n f -> n <> 8%Z -> forall b xs, have_values Linear n (operands b) xs ->
  let u := roundoff n (if (n <? 64)%Z then 1 else 0) in
  (1 + u) ^ depth b * (sum_of_magnitudes xs + INR (calls b) * powerRZ 2 (-254)) < powerRZ 2 254 ->
  exists t y, evaluate f b = Val t /\ is_intn n t /\ value Linear n t = Some y /\
    Rabs (y - sum xs) <= ((1 + u) ^ depth b - 1) * sum_of_magnitudes xs + INR (calls b) * (1 + u) ^ depth b * powerRZ 2 (-254).
Proof.
  intros n f H N8 b. induction b as [t|l IHl r IHr]; intros xs Hv u Hs.
  - cbn [operands] in Hv. inversion Hv as [|? x ? xs' [It Vt] Hv']; subst. inversion Hv'; subst. exists t, x. split; [reflexivity|]. split; [assumption|]. split; [assumption|].
    unfold sum, sum_of_magnitudes. simpl. replace (x - (x + 0)) with 0 by ring. rewrite Rabs_R0. lra.
  - cbn [operands] in Hv. destruct (values_app _ _ _ _ _ Hv) as (ys & zs & -> & Hy & Hz). rewrite mag_app, sum_app in *.
    assert (0 < u) as Pu by apply roundoff_pos. rewrite !powerRZ_bpow in *. cbn [depth calls] in *. rewrite S_INR, plus_INR in *.
    pose proof (mag_pos ys) as PA. pose proof (mag_pos zs) as PB. pose proof (pos_INR (calls l)) as PM. pose proof (pos_INR (calls r)) as PN.
    pose proof (sum_le_mag ys) as SA. pose proof (sum_le_mag zs) as SB.
    pose proof (pow_mono u (depth l) (Nat.max (depth l) (depth r)) Pu ltac:(lia)) as QL. pose proof (pow_mono u (depth r) (Nat.max (depth l) (depth r)) Pu ltac:(lia)) as QR.
    set (Q := (1 + u) ^ Nat.max (depth l) (depth r)) in *. change ((1 + u) ^ S (Nat.max (depth l) (depth r))) with ((1 + u) * Q) in *.
    set (eta := bpow radix2 (-254)) in *. assert (0 < eta) as Pe by apply bpow_gt_0.
    set (A := sum_of_magnitudes ys) in *. set (B := sum_of_magnitudes zs) in *. set (M := INR (calls l)) in *. set (N := INR (calls r)) in *.
    assert (0 <= M * eta) as PMe by (apply Rmult_le_pos; lra). assert (0 <= N * eta) as PNe by (apply Rmult_le_pos; lra).
    assert (forall q, 1 <= q <= Q -> q * (A + M * eta) <= Q * (A + M * eta)) as KL by (intros q Hq; apply Rmult_le_compat_r; lra).
    assert (forall q, 1 <= q <= Q -> q * (B + N * eta) <= Q * (B + N * eta)) as KR by (intros q Hq; apply Rmult_le_compat_r; lra).
    assert (0 <= Q * (A + M * eta)) as ZL by (apply Rmult_le_pos; lra). assert (0 <= Q * (B + N * eta)) as ZR by (apply Rmult_le_pos; lra). assert (0 <= Q * eta) as ZE by (apply Rmult_le_pos; lra).
    assert (0 <= u * (Q * (A + M * eta))) as ZL' by (apply Rmult_le_pos; lra). assert (0 <= u * (Q * (B + N * eta))) as ZR' by (apply Rmult_le_pos; lra). assert (0 <= u * (Q * eta)) as ZE' by (apply Rmult_le_pos; lra).
    assert ((1 + u) * Q * (A + B + (M + N + 1) * eta) = Q * (A + M * eta) + Q * (B + N * eta) + Q * eta + u * (Q * (A + M * eta)) + u * (Q * (B + N * eta)) + u * (Q * eta)) as EX by ring.
    destruct (IHl ys Hy) as (tl & yl & El & Il & Vl & Dl). { fold u A M. specialize (KL _ QL). lra. }
    destruct (IHr zs Hz) as (tr & yr & Er & Ir & Vr & Dr). { fold u B N. specialize (KR _ QR). lra. }
    clear IHl IHr. fold u A M in Dl. fold u B N in Dr.
    assert (Rabs (yl - sum ys) <= (Q - 1) * A + M * Q * eta) as DL.
    { eapply Rle_trans; [exact Dl|]. specialize (KL _ QL). lra. }
    assert (Rabs (yr - sum zs) <= (Q - 1) * B + N * Q * eta) as DR.
    { eapply Rle_trans; [exact Dr|]. specialize (KR _ QR). lra. }
    assert (Rabs yl <= Q * (A + M * eta)) as AL. { replace yl with ((yl - sum ys) + sum ys) by ring. eapply Rle_trans; [apply Rabs_triang|]. lra. }
    assert (Rabs yr <= Q * (B + N * eta)) as AR. { replace yr with ((yr - sum zs) + sum zs) by ring. eapply Rle_trans; [apply Rabs_triang|]. lra. }
    pose proof (Rabs_triang yl yr) as T.
    destruct (add_step n f tl tr yl yr H N8 Il Ir Vl Vr ltac:(lra)) as (t & y & E & I & V & C1 & C2 & _). fold u in C1. fold eta in C1, C2.
    assert (Rabs (y - (yl + yr)) <= u * Rabs (yl + yr) + eta) as C.
    { destruct (Rle_or_lt eta (Rabs (yl + yr))) as [K|K]; [specialize (C1 K); lra|specialize (C2 K)]. assert (0 <= u * Rabs (yl + yr)) by (apply Rmult_le_pos; [lra|apply Rabs_pos]). lra. }
    exists t, y. split; [cbn [evaluate]; rewrite El; cbn [bind]; rewrite Er; exact E|]. split; [assumption|]. split; [assumption|].
    replace (y - (sum ys + sum zs)) with ((y - (yl + yr)) + ((yl - sum ys) + (yr - sum zs))) by ring. eapply Rle_trans; [apply Rabs_triang|]. pose proof (Rabs_triang (yl - sum ys) (yr - sum zs)) as T2.
    assert (u * Rabs (yl + yr) <= u * (Q * (A + M * eta) + Q * (B + N * eta))) as T3 by (apply Rmult_le_compat_l; lra).
    assert (eta <= Q * eta) as T4 by (rewrite <- (Rmult_1_l eta) at 1; apply Rmult_le_compat_r; lra). lra.
Qed.

Definition moderate_summand (x : R) : Prop := x = 0 \/ powerRZ 2 (-254) <= x.
Lemma sum_nonneg : forall xs, Forall moderate_summand xs -> 0 <= sum xs.
Proof. intros xs Hp. unfold sum. induction Hp as [|y l Hy Hp IH]; simpl; [lra|]. unfold moderate_summand in Hy. rewrite powerRZ_bpow in Hy. pose proof (bpow_gt_0 radix2 (-254)). lra. Qed.
Lemma tree_sum_positive_strong : forall n f, linear_addition n f -> n <> 8%Z -> forall b xs, have_values Linear n (operands b) xs -> Forall moderate_summand xs ->
  let u := roundoff n (if (n <? 64)%Z then 1 else 0) in (1 + u) ^ depth b * sum xs < powerRZ 2 254 ->
  exists t y, evaluate f b = Val t /\ is_intn n t /\ value Linear n t = Some y /\ moderate_summand y /\
    (1 - u) ^ depth b * sum xs <= y <= (1 + u) ^ depth b * sum xs.
Proof.
  intros n f H N8 b. induction b as [t|l IHl r IHr]; intros xs Hv Hp u Hs.
  - cbn [operands] in Hv. inversion Hv as [|? x ? xs' [It Vt] Hv']; subst. inversion Hv'; subst. inversion Hp; subst. exists t, x. split; [reflexivity|]. split; [assumption|]. split; [assumption|]. split; [assumption|].
    unfold sum. simpl. lra.
  - cbn [operands] in Hv. destruct (values_app _ _ _ _ _ Hv) as (ys & zs & -> & Hy & Hz). rewrite sum_app in *. apply Forall_app in Hp as [Py Pz].
    assert (0 < u <= / 16) as Pu by (split; [apply roundoff_pos|apply roundoff_small; [destruct H; lia|destruct (n <? 64)%Z; lia]]).
    cbn [depth] in *. pose proof (sum_nonneg ys Py) as PA. pose proof (sum_nonneg zs Pz) as PB.
    pose proof (pow_mono u (depth l) (Nat.max (depth l) (depth r)) ltac:(lra) ltac:(lia)) as QL. pose proof (pow_mono u (depth r) (Nat.max (depth l) (depth r)) ltac:(lra) ltac:(lia)) as QR.
    pose proof (pow_anti u (depth l) (Nat.max (depth l) (depth r)) ltac:(lra) ltac:(lia)) as RL. pose proof (pow_anti u (depth r) (Nat.max (depth l) (depth r)) ltac:(lra) ltac:(lia)) as RR.
    set (Q := (1 + u) ^ Nat.max (depth l) (depth r)) in *. set (P := (1 - u) ^ Nat.max (depth l) (depth r)) in *.
    change ((1 + u) ^ S (Nat.max (depth l) (depth r))) with ((1 + u) * Q) in *. change ((1 - u) ^ S (Nat.max (depth l) (depth r))) with ((1 - u) * P) in *.
    set (A := sum ys) in *. set (B := sum zs) in *.
    assert (0 <= Q * A) as ZA by (apply Rmult_le_pos; lra). assert (0 <= Q * B) as ZB by (apply Rmult_le_pos; lra).
    assert (0 <= u * (Q * A)) as ZA' by (apply Rmult_le_pos; lra). assert (0 <= u * (Q * B)) as ZB' by (apply Rmult_le_pos; lra).
    assert ((1 + u) ^ depth l * A <= Q * A) as KL by (apply Rmult_le_compat_r; lra). assert ((1 + u) ^ depth r * B <= Q * B) as KR by (apply Rmult_le_compat_r; lra).
    assert (P * A <= (1 - u) ^ depth l * A) as JL by (apply Rmult_le_compat_r; lra). assert (P * B <= (1 - u) ^ depth r * B) as JR by (apply Rmult_le_compat_r; lra).
    destruct (IHl ys Hy Py) as (tl & yl & El & Il & Vl & Ml & Dl). { fold u A. lra. }
    destruct (IHr zs Hz Pz) as (tr & yr & Er & Ir & Vr & Mr & Dr). { fold u B. lra. }
    clear IHl IHr. fold u A in Dl. fold u B in Dr. unfold moderate_summand in *. rewrite !powerRZ_bpow in *.
    pose proof (bpow_gt_0 radix2 (-254)) as Pe. assert (0 <= yl /\ 0 <= yr) as [P0 P1] by lra.
    destruct (add_step n f tl tr yl yr H N8 Il Ir Vl Vr ltac:(rewrite Rabs_pos_eq by lra; lra)) as (t & y & E & I & V & C1 & _ & C3 & C4). fold u in C1.
    rewrite Rabs_pos_eq in C1 by lra.
    assert ((y = 0 \/ bpow radix2 (-254) <= y) /\ (1 - u) * (yl + yr) <= y <= (1 + u) * (yl + yr)) as [Y1 Y2].
    { assert (yl + yr = 0 \/ bpow radix2 (-254) <= yl + yr) as [K|K] by lra.
      - rewrite (C4 K), K. lra.
      - specialize (C1 K). specialize (C3 K). split; [right; assumption|]. apply Rabs_le_inv in C1. lra. }
    exists t, y. split; [cbn [evaluate]; rewrite El; cbn [bind]; rewrite Er; exact E|]. split; [assumption|]. split; [assumption|]. split; [assumption|].
    assert ((1 - u) * (P * A + P * B) <= (1 - u) * (yl + yr)) as F1 by (apply Rmult_le_compat_l; lra).
    assert ((1 + u) * (yl + yr) <= (1 + u) * (Q * A + Q * B)) as F2 by (apply Rmult_le_compat_l; lra).
    lra.
Qed.
Theorem tree_sum_positive : forall n f b xs, linear_addition n f -> n <> 8%Z -> have_values Linear n (operands b) xs ->
  Forall (fun x => x = 0 \/ powerRZ 2 (-254) <= x) xs ->
  let u := roundoff n (if (n <? 64)%Z then 1 else 0) in (1 + u) ^ depth b * sum xs < powerRZ 2 254 ->
  exists t y, evaluate f b = Val t /\ is_intn n t /\ value Linear n t = Some y /\
    (1 - u) ^ depth b * sum xs <= y <= (1 + u) ^ depth b * sum xs.
Proof.
  intros n f b xs H N8 Hv Hp u Hs. destruct (tree_sum_positive_strong n f H N8 b xs Hv Hp Hs) as (t & y & E & I & V & _ & D). exists t, y. tauto.
Qed.
Lemma values_permutation : forall k n l l', Permutation l l' -> forall xs, have_values k n l xs -> exists xs', have_values k n l' xs' /\ Permutation xs xs'.
Proof.
  intros k n l l' P. induction P; intros xs Hv.
  - exists xs. split; [assumption|reflexivity].
  - inversion Hv as [|? y ? ys A B]; subst. destruct (IHP _ B) as (zs & C & D). exists (y :: zs). split; [constructor; assumption|constructor; assumption].
  - inversion Hv as [|? v ? vs A B]; subst. inversion B as [|? w ? ws C D]; subst. exists (w :: v :: ws). split; [constructor; [assumption|constructor; assumption]|constructor].
  - destruct (IHP1 _ Hv) as (ys & A & B). destruct (IHP2 _ A) as (zs & C & D). exists zs. split; [assumption|]. transitivity ys; assumption.
Qed.
Lemma sum_permutation : forall xs ys, Permutation xs ys -> sum xs = sum ys.
Proof. intros xs ys P. unfold sum. induction P; simpl; lra. Qed.
(** the order does not matter up to the error *)
Theorem tree_orders : forall n f b b' xs, linear_addition n f -> n <> 8%Z -> Permutation (operands b) (operands b') -> have_values Linear n (operands b) xs ->
  Forall (fun x => x = 0 \/ powerRZ 2 (-254) <= x) xs ->
  let u := roundoff n (if (n <? 64)%Z then 1 else 0) in (1 + u) ^ depth b * sum xs < powerRZ 2 254 -> (1 + u) ^ depth b' * sum xs < powerRZ 2 254 ->
  exists t y t' y', evaluate f b = Val t /\ value Linear n t = Some y /\ evaluate f b' = Val t' /\ value Linear n t' = Some y' /\
    (1 - u) ^ depth b' * y <= (1 + u) ^ depth b * y' /\ (1 - u) ^ depth b * y' <= (1 + u) ^ depth b' * y.
Proof.
  intros n f b b' xs H N8 P Hv Hp u Hs Hs'. destruct (values_permutation _ _ _ _ P _ Hv) as (xs' & Hv' & P').
  pose proof (sum_permutation _ _ P') as ES.
  assert (Forall (fun x => x = 0 \/ powerRZ 2 (-254) <= x) xs') as Hp' by (apply (Permutation_Forall P'); assumption).
  destruct (tree_sum_positive n f b xs H N8 Hv Hp Hs) as (t & y & E & _ & V & D). destruct (tree_sum_positive n f b' xs' H N8 Hv' Hp' ltac:(rewrite <- ES; exact Hs')) as (t' & y' & E' & _ & V' & D').
  fold u in D, D'. rewrite <- ES in D'. exists t, y, t', y'. repeat (split; [assumption|]).
  assert (0 < u <= / 16) as Pu by (split; [apply roundoff_pos|apply roundoff_small; [destruct H; lia|destruct (n <? 64)%Z; lia]]).
  assert (0 < (1 - u) ^ depth b) by (apply pow_lt; lra). assert (0 < (1 - u) ^ depth b') by (apply pow_lt; lra). assert (0 < (1 + u) ^ depth b) by (apply pow_lt; lra). assert (0 < (1 + u) ^ depth b') by (apply pow_lt; lra).
  set (S := sum xs) in *. split.
  - apply Rle_trans with ((1 - u) ^ depth b' * ((1 + u) ^ depth b * S)); [apply Rmult_le_compat_l; lra|]. replace ((1 - u) ^ depth b' * ((1 + u) ^ depth b * S)) with ((1 + u) ^ depth b * ((1 - u) ^ depth b' * S)) by ring. apply Rmult_le_compat_l; lra.
  - apply Rle_trans with ((1 - u) ^ depth b * ((1 + u) ^ depth b' * S)); [apply Rmult_le_compat_l; lra|]. replace ((1 - u) ^ depth b * ((1 + u) ^ depth b' * S)) with ((1 + u) ^ depth b' * ((1 - u) ^ depth b * S)) by ring. apply Rmult_le_compat_l; lra.
Qed.

(** * Products *)
Lemma tree_product_error : forall k n q f, std_width n -> n <> 8%Z -> (q = 0 \/ q = 1)%Z ->
  (forall a b x y, is_intn n a -> is_intn n b -> value k n a = Some x -> value k n b = Some y ->
     exists t, f a b = Val t /\ is_intn n t /\ relative_error k n q (x * y) t) ->
  let u := roundoff n q in
  forall b xs, have_values k n (operands b) xs -> (forall p ys, part p b -> have_values k n (operands p) ys -> moderate k (product ys)) -> INR (calls b) * u < / 2 ->
  exists t y d, evaluate f b = Val t /\ is_intn n t /\ value k n t = Some y /\ y = product xs * d /\ (1 - u) ^ calls b <= d <= (1 + u) ^ calls b.
Proof.
  intros k n q f Sw N8 Hq Hf u b. assert (16 <= n)%Z as Hn by (unfold std_width in Sw; lia).
  assert (0 < u <= / 16) as Pu by (split; [apply roundoff_pos|apply roundoff_small; lia]).
  induction b as [t|l IHl r IHr]; intros xs Hv HM Hs.
  - cbn [operands] in Hv. inversion Hv as [|? x ? xs' [It Vt] Hv']; subst. inversion Hv'; subst. exists t, x, 1. split; [reflexivity|]. split; [assumption|]. split; [assumption|]. unfold product. simpl. lra.
  - pose proof (HM _ xs (part_all _) Hv) as M1. cbn [operands] in Hv. destruct (values_app _ _ _ _ _ Hv) as (ys & zs & -> & Hy & Hz). rewrite product_app in *. cbn [calls] in *.
    assert (forall j, (j <= calls l + calls r)%nat -> INR j * u < / 2) as Hj. { intros j Hj. eapply Rle_lt_trans; [|exact Hs]. apply Rmult_le_compat_r; [lra|]. apply le_INR. lia. }
    destruct (IHl ys Hy (fun p vs Hp => HM p vs (part_left _ _ _ Hp)) (Hj (calls l) ltac:(lia))) as (tl & yl & dl & El & Il & Vl & Yl & Dl).
    destruct (IHr zs Hz (fun p vs Hp => HM p vs (part_right _ _ _ Hp)) (Hj (calls r) ltac:(lia))) as (tr & yr & dr & Er & Ir & Vr & Yr & Dr).
    clear IHl IHr. destruct (Hf tl tr yl yr Il Ir Vl Vr) as (t1 & E1 & I1 & R1). set (P := product ys * product zs) in *.
    assert (yl * yr = P * (dl * dr)) as Ez by (subst yl yr; unfold P; ring). rewrite Ez in R1. set (c := dl * dr) in *.
    assert (0 < (1 - u) ^ calls l) as Z1 by (apply pow_lt; lra). assert (0 < (1 - u) ^ calls r) as Z2 by (apply pow_lt; lra).
    assert ((1 - u) ^ (calls l + calls r) <= c <= (1 + u) ^ (calls l + calls r)) as Hc by (unfold c; rewrite !pow_add; split; apply Rmult_le_compat; lra).
    destruct (pow_range u (calls l + calls r) (S (calls l + calls r)) ltac:(lra) ltac:(lia) Hs) as [L1 L2].
    assert (P <> 0) as Nz.
    { intros K. rewrite K in M1. destruct k; unfold moderate in M1; rewrite Rabs_R0 in M1; [pose proof (exp_pos (-126)); lra|]. rewrite !powerRZ_bpow in M1. pose proof (bpow_gt_0 radix2 (-253)). lra. }
    assert (P * c <> 0) as Nc by (apply Rmult_integral_contrapositive; split; [assumption|lra]).
    destruct (moderate_exponent k P c M1 ltac:(lra) Nc) as (e & He & Be).
    destruct (error_roundoff _ _ _ _ _ e Hn He Be R1) as (y1 & V1 & B1). fold u in B1. clearbody c.
    set (w := y1 / (P * c)).
    assert (y1 = P * c * w) as Ew by (unfold w; field; split; [lra|assumption]).
    assert (Rabs (w - 1) <= u) as Bw.
    { apply (Rmult_le_reg_r (Rabs (P * c))); [apply Rabs_pos_lt; assumption|]. rewrite <- Rabs_mult. replace ((w - 1) * (P * c)) with (y1 - P * c) by (rewrite Ew; ring). assumption. }
    apply Rabs_le_inv in Bw. clearbody w. exists t1, y1, (w * c). split; [cbn [evaluate]; rewrite El; cbn [bind]; rewrite Er; exact E1|]. split; [assumption|]. split; [assumption|]. split; [rewrite Ew; ring|].
    cbn [pow]. split; apply Rmult_le_compat; lra.
Qed.
Theorem lin_tree_product : forall n f b xs, linear_multiplication n f -> n <> 8%Z -> have_values Linear n (operands b) xs ->
  let u := roundoff n (if (n =? 16)%Z then 1 else 0) in
  (forall p ys, part p b -> have_values Linear n (operands p) ys -> moderate Linear (product ys)) -> INR (calls b) * u < / 2 ->
  exists t y d, evaluate f b = Val t /\ is_intn n t /\ value Linear n t = Some y /\ y = product xs * d /\ (1 - u) ^ calls b <= d <= (1 + u) ^ calls b.
Proof.
  intros n f b xs H N8 Hv u HM Hs. assert (std_width n) as Sw by (destruct H; unfold std_width; tauto).
  apply (tree_product_error Linear n (if (n =? 16)%Z then 1 else 0)%Z f Sw N8 ltac:(destruct (n =? 16)%Z; [right|left]; reflexivity) (fun a b x y Ia Ib Va Vb => lin_mul_error n f a b x y H N8 Ia Ib Va Vb)); assumption.
Qed.
Theorem log_tree_product : forall n f b xs, log_multiplication n f -> n <> 8%Z -> have_values Logarithmic n (operands b) xs ->
  let u := roundoff n (if (n <? 64)%Z then 1 else 0) in
  (forall p ys, part p b -> have_values Logarithmic n (operands p) ys -> moderate Logarithmic (product ys)) -> INR (calls b) * u < / 2 ->
  exists t y d, evaluate f b = Val t /\ is_intn n t /\ value Logarithmic n t = Some y /\ y = product xs * d /\ (1 - u) ^ calls b <= d <= (1 + u) ^ calls b.
Proof.
  intros n f b xs H N8 Hv u HM Hs. assert (std_width n) as Sw by (destruct H; unfold std_width; tauto).
  apply (tree_product_error Logarithmic n (if (n <? 64)%Z then 1 else 0)%Z f Sw N8 ltac:(destruct (n <? 64)%Z; [right|left]; reflexivity) (fun a b x y Ia Ib Va Vb => log_mul_error n f a b x y H N8 Ia Ib Va Vb)); assumption.
Qed.

(** * Signs, order and NaR *)
Lemma signs_app : forall l r, signs (l ++ r) = (signs l * signs r)%Z.
Proof. intros l r. unfold signs. induction l as [|t l IH]; cbn [app fold_right]; [lia|]. rewrite IH. lia. Qed.
Theorem tree_signs : forall k n f b, any_multiplication k n f -> Forall (no_nar n) (operands b) ->
  exists r, evaluate f b = Val r /\ no_nar n r /\ Z.sgn r = signs (operands b).
Proof.
  intros k n f b H. induction b as [t|l IHl r IHr]; intros F.
  - cbn [operands] in F. inversion F; subst. exists t. split; [reflexivity|]. split; [assumption|]. cbn [operands signs fold_right]. unfold signs. simpl. lia.
  - cbn [operands] in *. apply Forall_app in F as [Fl Fr]. destruct (IHl Fl) as (s & Es & Ns & Ss). destruct (IHr Fr) as (t & Et & Nt & St).
    destruct (mul_signs k n f s t H Ns Nt) as (p & E & Np & Sp). exists p. split; [cbn [evaluate]; rewrite Es; cbn [bind]; rewrite Et; exact E|]. split; [assumption|]. rewrite signs_app, Sp, Ss, St. reflexivity.
Qed.
Theorem tree_above : forall n f b, linear_addition n f -> Forall (fun t => no_nar n t /\ (0 <= t)%Z) (operands b) ->
  exists r, evaluate f b = Val r /\ no_nar n r /\ (0 <= r)%Z /\ Forall (fun t => (t <= r)%Z) (operands b).
Proof.
  intros n f b H. induction b as [t|l IHl r IHr]; intros F.
  - cbn [operands] in *. inversion F as [|? ? [N P] _]; subst. exists t. split; [reflexivity|]. split; [assumption|]. split; [assumption|]. repeat constructor. lia.
  - cbn [operands] in *. apply Forall_app in F as [Fl Fr]. destruct (IHl Fl) as (s & Es & Ns & Ps & Ls). destruct (IHr Fr) as (t & Et & Nt & Pt & Lt).
    destruct (add_above n f s t H Ns Nt Ps Pt) as (p & E & Np & L1 & L2). exists p. split; [cbn [evaluate]; rewrite Es; cbn [bind]; rewrite Et; exact E|]. split; [assumption|]. split; [lia|].
    apply Forall_app. split; [eapply Forall_impl; [|exact Ls]|eapply Forall_impl; [|exact Lt]]; cbv beta; intros; lia.
Qed.
Lemma nar_is_intn : forall n, std_width n -> is_intn n (nar n).
Proof. intros n Sw. pose proof (std_range n Sw). unfold is_intn, nar. pose proof (Z.pow_pos_nonneg 2 (n - 1)). lia. Qed.
Lemma tree_nar_gen : forall n f b, std_width n ->
  (forall s t, no_nar n s -> no_nar n t -> exists u, f s t = Val u /\ no_nar n u) ->
  (forall s t, is_intn n s -> is_intn n t -> s = nar n \/ t = nar n -> f s t = Val (nar n)) ->
  Forall (is_intn n) (operands b) ->
  exists r, evaluate f b = Val r /\ is_intn n r /\ (r = nar n <-> In (nar n) (operands b)).
Proof.
  intros n f b Sw G1 G2. pose proof (nar_is_intn n Sw) as In0. induction b as [t|l IHl r IHr]; intros F.
  - cbn [operands] in *. inversion F; subst. exists t. split; [reflexivity|]. split; [assumption|]. simpl. intuition congruence.
  - cbn [operands] in *. apply Forall_app in F as [Fl Fr]. destruct (IHl Fl) as (s & Es & Is & Ss). destruct (IHr Fr) as (t & Et & It & St).
    cbn [evaluate]. rewrite Es. cbn [bind]. rewrite Et. cbn [bind].
    assert (In (nar n) (operands l ++ operands r) <-> s = nar n \/ t = nar n) as Q by (rewrite in_app_iff, Ss, St; tauto).
    destruct (Z.eq_dec s (nar n)) as [K|K]; [|destruct (Z.eq_dec t (nar n)) as [K'|K']].
    + exists (nar n). split; [apply G2; tauto|]. tauto.
    + exists (nar n). split; [apply G2; tauto|]. tauto.
    + destruct (G1 s t (conj Is K) (conj It K')) as (u & E & Iu & Nu). exists u. tauto.
Qed.

Lemma value_of_nar : forall k n, std_width n -> value k n (nar n) = None.
Proof. intros k n Sw. apply (proj1 (order_nar_least k n (nar n) Sw (nar_is_intn n Sw))). reflexivity. Qed.
Theorem tree_nar : forall n f b, linear_addition n f \/ (exists k, any_multiplication k n f) -> Forall (is_intn n) (operands b) ->
  exists r, evaluate f b = Val r /\ is_intn n r /\ (r = nar n <-> In (nar n) (operands b)).
Proof.
  intros n f b H F. assert (std_width n) as Sw by (destruct H as [H|(k & [[_ H]|[_ H]])]; destruct H; unfold std_width; tauto).
  apply tree_nar_gen; try assumption.
  - intros s t Ns Nt. destruct H as [H|(k & H)]; [apply (add_runs n f s t H Ns Nt)|]. destruct (mul_signs k n f s t H Ns Nt) as (u & E & Nu & _). eauto.
  - intros s t Is It C. pose proof (value_of_nar Linear n Sw) as VL. pose proof (value_of_nar Logarithmic n Sw) as VG.
    destruct H as [H|(k & [[-> H]|[-> H]])].
    + destruct (add_faithful n f H s t Is It) as (u & E & _ & V). destruct C as [-> | ->]; rewrite VL in V; [|destruct (value Linear n s)]; rewrite E, V; reflexivity.
    + destruct (mul_lin_faithful n f H s t Is It) as (u & E & _ & V). destruct C as [-> | ->]; rewrite VL in V; [|destruct (value Linear n s)]; rewrite E, V; reflexivity.
    + destruct (mul_faithful n f s t H Is It) as (u & E & _ & V). destruct C as [-> | ->]; rewrite VG in V; [|destruct (value Logarithmic n s)]; rewrite E, V; reflexivity.
Qed.

(** * Associativity and distributivity fail *)
Lemma not_associative :
  (forall n f, linear_addition n f -> exists a b c s t, no_nar n a /\ no_nar n b /\ no_nar n c /\
     evaluate f (Join (Join (One a) (One b)) (One c)) = Val s /\ evaluate f (Join (One a) (Join (One b) (One c))) = Val t /\ s <> t) /\
  (forall k n f, any_multiplication k n f -> exists a b c s t, no_nar n a /\ no_nar n b /\ no_nar n c /\
     evaluate f (Join (Join (One a) (One b)) (One c)) = Val s /\ evaluate f (Join (One a) (Join (One b) (One c))) = Val t /\ s <> t) /\
  (forall n f g, linear_addition n f -> linear_multiplication n g -> exists a b c s t, no_nar n a /\ no_nar n b /\ no_nar n c /\
     bind (f b c) (g a) = Val s /\ bind (g a b) (fun p => bind (g a c) (f p)) = Val t /\ s <> t).
Proof.
  split; [|split].
  - intros n f H. destruct H.
    + exists 0x40%Z, 45%Z, 45%Z. do 2 eexists. do 3 (split; [split; [unfold is_intn; lia|unfold nar; lia]|]). split; [vm_compute; reflexivity|]. split; [vm_compute; reflexivity|discriminate].
    + exists 0x4000%Z, 8832%Z, 8832%Z. do 2 eexists. do 3 (split; [split; [unfold is_intn; lia|unfold nar; lia]|]). split; [vm_compute; reflexivity|]. split; [vm_compute; reflexivity|discriminate].
    + exists 0x40000000%Z, 423624704%Z, 423624704%Z. do 2 eexists. do 3 (split; [split; [unfold is_intn; lia|unfold nar; lia]|]). split; [vm_compute; reflexivity|]. split; [vm_compute; reflexivity|discriminate].
    + exists 0x4000000000000000%Z, 1197957500880551936%Z, 1197957500880551936%Z. do 2 eexists. do 3 (split; [split; [unfold is_intn; lia|unfold nar; lia]|]). split; [vm_compute; reflexivity|]. split; [vm_compute; reflexivity|discriminate].
  - intros k n f H. exists (2 ^ (n - 2) + 1)%Z, (2 ^ (n - 2) + 1)%Z, (2 ^ (n - 2) + 2 ^ (n - 5))%Z.
    destruct H as [[-> H]|[-> H]]; destruct H; do 2 eexists; (do 3 (split; [split; [vm_compute; split; congruence|vm_compute; discriminate]|])); (split; [vm_compute; reflexivity|]); (split; [vm_compute; reflexivity|discriminate]).
  - intros n f g H H'. exists (2 ^ (n - 2) + 2 ^ (n - 5))%Z, (2 ^ (n - 2) + 1)%Z, (- 2 ^ (n - 2))%Z.
    destruct H; inversion H'; subst; clear H'; do 2 eexists; (do 3 (split; [split; [vm_compute; split; congruence|vm_compute; discriminate]|])); (split; [vm_compute; reflexivity|]); (split; [vm_compute; reflexivity|discriminate]).
Qed.

Lemma ones_moderate : forall k b, (forall t, In t (operands b) -> t = (2 ^ 14)%Z) -> forall p ys, part p b -> have_values k 16 (operands p) ys -> moderate k (product ys).
Proof.
  intros k b Hb p ys Hp Hv. assert (forall t, In t (operands p) -> t = (2 ^ 14)%Z) as Hq.
  { induction Hp as [b|p l r Hp IH|p l r Hp IH]; [assumption| |]; apply IH; try assumption; intros t Ht; apply Hb; cbn [operands]; apply in_app_iff; tauto. }
  assert (product ys = 1) as ->.
  { clear Hp Hb. generalize dependent ys. induction (operands p) as [|t l IH]; intros ys Hv; inversion Hv as [|? y ? ys' [It Vt] Hv']; subst; [reflexivity|].
    change (product (y :: ys')) with (y * product ys'). rewrite (IH (fun t Ht => Hq t (or_intror Ht)) ys' Hv').
    destruct (value_one_k k 16 ltac:(unfold std_width; tauto)) as [V _]. rewrite (Hq t (or_introl eq_refl)) in Vt. change (2 ^ (16 - 2))%Z with (2 ^ 14)%Z in V. assert (y = 1) as -> by congruence. ring. }
  unfold moderate. rewrite Rabs_R1. destruct k.
  - pose proof (exp_increasing (-126) 0 ltac:(lra)). pose proof (exp_increasing 0 126 ltac:(lra)). rewrite exp_0 in *. lra.
  - rewrite !powerRZ_bpow. change 1 with (bpow radix2 0). split; apply bpow_le; lia.
Qed.
Lemma tree_case :
  let one := (2 ^ 14)%Z in let u := roundoff 16 1 in
  let b := Join (Join (One one) (One one)) (Join (One one) (One one)) in
  let b' := Join (Join (Join (One one) (One one)) (One one)) (One one) in
  linear_addition 16 (takum_linear_addition x86_64 W16) /\ linear_multiplication 16 (takum_linear_multiplication x86_64 W16) /\
  log_multiplication 16 takum16_multiplication /\
  depth b = 2%nat /\ depth b' = 3%nat /\ calls b = 3%nat /\ Permutation (operands b) (operands b') /\
  have_values Linear 16 (operands b) [1; 1; 1; 1] /\ have_values Logarithmic 16 (operands b) [1; 1; 1; 1] /\
  Forall (fun x => x = 0 \/ powerRZ 2 (-254) <= x) [1; 1; 1; 1] /\
  (1 + u) ^ depth b * (sum_of_magnitudes [1; 1; 1; 1] + INR (calls b) * powerRZ 2 (-254)) < powerRZ 2 254 /\
  (1 + u) ^ depth b' * sum [1; 1; 1; 1] < powerRZ 2 254 /\
  (forall p ys, part p b -> have_values Linear 16 (operands p) ys -> moderate Linear (product ys)) /\
  (forall p ys, part p b -> have_values Logarithmic 16 (operands p) ys -> moderate Logarithmic (product ys)) /\
  INR (calls b) * u < / 2 /\
  evaluate (takum_linear_addition x86_64 W16) (Join (Join (One 0x4000) (One 8832)) (Join (One 8832) (One 8832)))%Z = Val 0x4001%Z /\
  evaluate (takum_linear_addition x86_64 W16) (Join (Join (Join (One 0x4000) (One 8832)) (One 8832)) (One 8832))%Z = Val 0x4000%Z.
Proof.
  intros one u b b'. destruct (value_one_k Linear 16 ltac:(unfold std_width; tauto)) as [V I]. destruct (value_one_k Logarithmic 16 ltac:(unfold std_width; tauto)) as [V' _].
  assert (0 < u <= / 16) as U by (split; [apply roundoff_pos|apply roundoff_small; lia]).
  assert (0 < powerRZ 2 (-254) <= / 16) as Pe. { rewrite powerRZ_bpow. split; [apply bpow_gt_0|]. replace (/ 16) with (bpow radix2 (-4)) by (simpl; lra). apply bpow_le. lia. }
  assert (1024 <= powerRZ 2 254) as PD. { rewrite powerRZ_bpow. replace 1024 with (bpow radix2 10) by (simpl; lra). apply bpow_le. lia. }
  assert (forall v m, 0 < v <= / 16 -> (m <= 4)%nat -> (1 + v) ^ m <= 2) as PP.
  { intros v m Hv Hm. apply Rle_trans with ((1 + / 16) ^ m); [apply pow_incr; lra|]. apply Rle_trans with ((1 + / 16) ^ 4); [apply Rle_pow; [lra|assumption]|]. simpl. lra. }
  split; [constructor|]. split; [constructor|]. split; [constructor|]. split; [reflexivity|]. split; [reflexivity|]. split; [reflexivity|]. split; [apply Permutation_refl|].
  split; [unfold have_values; cbn [b operands app]; do 4 (apply Forall2_cons; [exact (conj I V)|]); apply Forall2_nil|].
  split; [unfold have_values; cbn [b operands app]; do 4 (apply Forall2_cons; [exact (conj I V')|]); apply Forall2_nil|].
  split; [do 4 (apply Forall_cons; [right; lra|]); apply Forall_nil|].
  split. { pose proof (PP u 2%nat U ltac:(lia)) as P. change (depth b) with 2%nat. change (calls b) with 3%nat. assert (0 < (1 + u) ^ 2) by (apply pow_lt; lra). unfold sum_of_magnitudes. cbn [fold_right]. rewrite Rabs_R1. simpl INR. nra. }
  split. { pose proof (PP u 3%nat U ltac:(lia)) as P. change (depth b') with 3%nat. assert (0 < (1 + u) ^ 3) by (apply pow_lt; lra). unfold sum. cbn [fold_right]. nra. }
  split; [apply ones_moderate; intros t Ht; unfold b in Ht; cbn [operands app In] in Ht; destruct Ht as [<- |[<- |[<- |[<- |[]]]]]; reflexivity|].
  split; [apply ones_moderate; intros t Ht; unfold b in Ht; cbn [operands app In] in Ht; destruct Ht as [<- |[<- |[<- |[<- |[]]]]]; reflexivity|].
  split; [change (calls b) with 3%nat; simpl INR; lra|].
  split; vm_compute; reflexivity.
Qed.
