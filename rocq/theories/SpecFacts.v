(** Link between the specification (fields of the bit string) and the
    piecewise linear code function X of CodeFacts. *)
From Coq Require Import ZArith Reals Bool Lia Lra.
From Flocq Require Import Core.Core.
From Verif Require Import CModel Spec CodeFacts.
Local Open Scope Z_scope.

Lemma pow2_pos : forall k, 0 <= k -> 0 < 2 ^ k.
Proof. intros. apply Z.pow_pos_nonneg; lia. Qed.

Lemma pow2_split : forall a b, 0 <= a -> 0 <= b -> 2 ^ (a + b) = 2 ^ a * 2 ^ b.
Proof. intros. apply Z.pow_add_r; lia. Qed.

Lemma div_mul_small : forall a b q r, 0 < b -> 0 <= r < b -> a = q * b + r -> a / b = q.
Proof. intros. subst. rewrite Z.div_add_l, Z.div_small; lia. Qed.
Lemma mod_mul_small : forall a b q r, 0 < b -> 0 <= r < b -> a = q * b + r -> a mod b = r.
Proof. intros. subst. rewrite Z.add_comm, Z.mod_add, Z.mod_small; lia. Qed.

Section Width.
Variable n : Z.
Hypothesis Hn : 5 <= n <= 64.

Let W := width n.
Lemma W_ge : n <= W /\ 12 <= W <= 64.
Proof. unfold W, width. lia. Qed.

Lemma low_bounds : forall t, 0 <= low n t < 2 ^ (n - 1).
Proof. intros. apply Z.mod_pos_bound. apply pow2_pos. lia. Qed.

Lemma low_cases : forall t, is_intn n t ->
  low n t = if t <? 0 then t + 2 ^ (n - 1) else t.
Proof.
  intros t [H1 H2]. unfold low. pose proof (pow2_pos (n - 1) ltac:(lia)).
  destruct (Z.ltb_spec t 0).
  - apply (mod_mul_small _ _ (-1)); lia.
  - apply Z.mod_small; lia.
Qed.

Lemma mod_cases : forall t, is_intn n t ->
  t mod 2 ^ n = b2z (t <? 0) * 2 ^ (n - 1) + low n t.
Proof.
  intros t H. rewrite (low_cases t H). destruct H as [H1 H2].
  assert (2 ^ n = 2 * 2 ^ (n - 1)) as E.
  { rewrite <- Z.pow_succ_r by lia. f_equal. lia. }
  pose proof (pow2_pos (n - 1) ltac:(lia)).
  destruct (Z.ltb_spec t 0); unfold b2z.
  - apply (mod_mul_small _ _ (-1)); lia.
  - rewrite Z.mod_small; lia.
Qed.

(** the pieces of the padded bit string *)
Definition DRn (t : Z) : Z := low n t / 2 ^ (n - 5).
Definition yn (t : Z) : Z := (low n t mod 2 ^ (n - 5)) * 2 ^ (W - n).

Lemma DRn_bounds : forall t, 0 <= DRn t < 16.
Proof.
  intros t. unfold DRn. pose proof (low_bounds t) as H.
  replace (n - 1) with (4 + (n - 5)) in H by lia. rewrite pow2_split in H by lia.
  pose proof (pow2_pos (n - 5) ltac:(lia)).
  split; [apply Z.div_pos; lia | apply Z.div_lt_upper_bound; lia].
Qed.

Lemma yn_bounds : forall t, 0 <= yn t < 2 ^ (W - 5).
Proof.
  intros t. unfold yn. pose proof W_ge.
  pose proof (Z.mod_pos_bound (low n t) (2 ^ (n - 5)) (pow2_pos (n - 5) ltac:(lia))).
  pose proof (pow2_pos (W - n) ltac:(lia)).
  replace (W - 5) with ((n - 5) + (W - n)) by lia. rewrite pow2_split by lia. nia.
Qed.

Lemma padded_eq : forall t, is_intn n t ->
  padded n t = b2z (t <? 0) * 2 ^ (W - 1) + DRn t * 2 ^ (W - 5) + yn t.
Proof.
  intros t H. unfold padded. rewrite mod_cases by assumption. fold W.
  pose proof W_ge. unfold DRn, yn.
  pose proof (Z.div_mod (low n t) (2 ^ (n - 5))
                ltac:(pose proof (pow2_pos (n - 5) ltac:(lia)); lia)) as E.
  replace (W - 1) with ((n - 1) + (W - n)) by lia.
  replace (W - 5) with ((n - 5) + (W - n)) by lia.
  rewrite !pow2_split by lia. rewrite E at 1. ring.
Qed.

Lemma S_eq : forall t, is_intn n t -> S_ n t = b2z (t <? 0).
Proof.
  intros t H. unfold S_, field. fold W. rewrite padded_eq by assumption.
  pose proof W_ge. pose proof (DRn_bounds t). pose proof (yn_bounds t).
  rewrite (div_mul_small _ (2 ^ (W - 1)) (b2z (t <? 0)) (DRn t * 2 ^ (W - 5) + yn t)).
  - destruct (t <? 0); reflexivity.
  - apply pow2_pos; lia.
  - replace (W - 1) with (4 + (W - 5)) by lia. rewrite pow2_split by lia.
    change (2 ^ 4) with 16. nia.
  - ring.
Qed.

Lemma D_eq : forall t, is_intn n t -> D_ n t = DRn t / 8.
Proof.
  intros t H. unfold D_, field. fold W. rewrite padded_eq by assumption.
  pose proof W_ge. pose proof (DRn_bounds t). pose proof (yn_bounds t).
  pose proof (Z.div_mod (DRn t) 8 ltac:(lia)). pose proof (Z.mod_pos_bound (DRn t) 8 ltac:(lia)).
  rewrite (div_mul_small _ (2 ^ (W - 2)) (b2z (t <? 0) * 2 + DRn t / 8) (DRn t mod 8 * 2 ^ (W - 5) + yn t)).
  - rewrite Z.add_comm, Z.mod_add by lia. apply Z.mod_small. lia.
  - apply pow2_pos; lia.
  - replace (W - 2) with (3 + (W - 5)) by lia. rewrite pow2_split by lia.
    change (2 ^ 3) with 8. nia.
  - replace (W - 1) with (4 + (W - 5)) by lia. replace (W - 2) with (3 + (W - 5)) by lia.
    rewrite !pow2_split by lia. change (2 ^ 3) with 8. change (2 ^ 4) with 16.
    rewrite (Z.div_mod (DRn t) 8) at 1 by lia. ring.
Qed.

Lemma R_eq : forall t, is_intn n t -> R_ n t = DRn t mod 8.
Proof.
  intros t H. unfold R_, field. fold W. rewrite padded_eq by assumption.
  pose proof W_ge. pose proof (DRn_bounds t). pose proof (yn_bounds t).
  rewrite (div_mul_small _ (2 ^ (W - 5)) (b2z (t <? 0) * 16 + DRn t) (yn t)).
  - change (2 ^ 3) with 8. replace (b2z (t <? 0) * 16 + DRn t) with (DRn t + (b2z (t <? 0) * 2) * 8) by ring.
    apply Z.mod_add. lia.
  - apply pow2_pos; lia.
  - lia.
  - replace (W - 1) with (4 + (W - 5)) by lia.
    rewrite !pow2_split by lia. change (2 ^ 4) with 16. ring.
Qed.

Lemma r_eq : forall t, is_intn n t -> r_ n t = regZ (DRn t).
Proof.
  intros t H. unfold r_. rewrite D_eq, R_eq by assumption.
  pose proof (DRn_bounds t) as HD. case_DR HD;
    match goal with K : DRn t = _ |- _ => rewrite K end; reflexivity.
Qed.

Lemma C_M_eq : forall t, is_intn n t ->
  C_ n t = yn t / 2 ^ p_ n t /\ M_ n t = yn t mod 2 ^ p_ n t.
Proof.
  intros t H. unfold C_, M_, field.
  pose proof W_ge as HW. pose proof (DRn_bounds t) as HD. pose proof (yn_bounds t) as HY.
  pose proof (regZ_bounds _ HD) as HR.
  assert (p_ n t = W - 5 - regZ (DRn t)) as Ep by (unfold p_; rewrite r_eq by assumption; reflexivity).
  rewrite Ep, r_eq by assumption. set (p := W - 5 - regZ (DRn t)) in *. set (r := regZ (DRn t)) in *.
  rewrite padded_eq by assumption.
  assert (2 ^ (W - 5) = 2 ^ p * 2 ^ r) as E5.
  { rewrite <- pow2_split by (unfold p; lia). f_equal. unfold p. lia. }
  assert (2 ^ (W - 1) = 16 * (2 ^ p * 2 ^ r)) as E1.
  { rewrite <- E5. change 16 with (2 ^ 4). rewrite <- pow2_split by lia. f_equal. lia. }
  assert (0 < 2 ^ p) by (apply pow2_pos; unfold p; lia).
  assert (0 < 2 ^ r) by (apply pow2_pos; lia).
  pose proof (Z.div_mod (yn t) (2 ^ p) ltac:(lia)) as Ey.
  pose proof (Z.mod_pos_bound (yn t) (2 ^ p) ltac:(lia)) as By.
  rewrite E1, E5 in *. set (s := b2z (t <? 0)). split.
  - rewrite (div_mul_small _ (2 ^ p) ((s * 16 + DRn t) * 2 ^ r + yn t / 2 ^ p) (yn t mod 2 ^ p)); [ | lia | lia | rewrite Ey at 1; ring].
    rewrite Z.add_comm, Z.mod_add by lia. apply Z.mod_small.
    split; [apply Z.div_pos; lia|]. apply Z.div_lt_upper_bound; lia.
  - rewrite Z.pow_0_r, Z.div_1_r.
    apply (mod_mul_small _ _ ((s * 16 + DRn t) * 2 ^ r + yn t / 2 ^ p)); [lia|lia|].
    rewrite Ey at 1. ring.
Qed.

Lemma Xn_eq : forall t, is_intn n t ->
  Xn n (low n t) = biasZ (DRn t) * 2 ^ 59 + yn t * 2 ^ (64 - W) * 2 ^ regZ (DRn t).
Proof.
  intros t H. unfold Xn, code64. pose proof W_ge. pose proof (yn_bounds t) as HY.
  rewrite <- X_eq.
  - f_equal. unfold DRn, yn.
    pose proof (Z.div_mod (low n t) (2 ^ (n - 5))
                  ltac:(pose proof (pow2_pos (n - 5) ltac:(lia)); lia)) as E.
    replace 59 with ((n - 5) + (64 - n)) by lia.
    replace (64 - n) with ((W - n) + (64 - W)) by lia.
    rewrite !pow2_split by lia. rewrite E at 1. ring.
  - replace 59 with ((W - 5) + (64 - W)) by lia. rewrite pow2_split by lia.
    pose proof (pow2_pos (64 - W) ltac:(lia)). nia.
Qed.

Lemma c_eq : forall t, is_intn n t -> c_ n t = biasZ (DRn t) + C_ n t.
Proof.
  intros t H. unfold c_. rewrite r_eq, D_eq by assumption.
  pose proof (DRn_bounds t) as HD. case_DR HD;
    match goal with K : DRn t = _ |- _ => rewrite K end;
    set (x := C_ n t); clearbody x; cbv - [Z.add]; destruct x; try reflexivity; lia.
Qed.

Local Open Scope R_scope.

Lemma cm_eq : forall t, is_intn n t ->
  IZR (c_ n t) + m_ n t = IZR (Xn n (low n t)) / IZR (2 ^ 59).
Proof.
  intros t H. rewrite Xn_eq, c_eq by assumption. unfold m_.
  destruct (C_M_eq t H) as [HC HM]. rewrite HC, HM.
  pose proof W_ge as HW. pose proof (DRn_bounds t) as HD. pose proof (yn_bounds t) as HY.
  pose proof (regZ_bounds _ HD) as HR.
  assert (p_ n t = W - 5 - regZ (DRn t))%Z as Ep by (unfold p_; rewrite r_eq by assumption; reflexivity).
  rewrite Ep. set (p := (W - 5 - regZ (DRn t))%Z) in *. set (r := regZ (DRn t)) in *.
  assert (0 < 2 ^ p)%Z by (apply pow2_pos; unfold p; lia).
  assert (0 < 2 ^ r)%Z by (apply pow2_pos; lia).
  assert (0 < 2 ^ (64 - W))%Z by (apply pow2_pos; lia).
  assert (2 ^ 59 = 2 ^ p * 2 ^ r * 2 ^ (64 - W))%Z as E59.
  { rewrite <- !pow2_split by (unfold p; lia). f_equal. unfold p. lia. }
  rewrite E59. pose proof (Z.div_mod (yn t) (2 ^ p) ltac:(lia)) as Ey.
  rewrite Ey at 3. repeat (rewrite plus_IZR || rewrite mult_IZR).
  field. repeat split; apply not_0_IZR; lia.
Qed.

Lemma sgn_eq : forall t, is_intn n t -> sgn n t = if (t <? 0)%Z then -1 else 1.
Proof.
  intros t H. unfold sgn. rewrite S_eq by assumption. destruct (t <? 0)%Z; simpl; lra.
Qed.

Lemma l_eq : forall t, is_intn n t ->
  l_ n t = (if (t <? 0)%Z then -1 else 1) * (IZR (Xn n (low n t)) / IZR (2 ^ 59)).
Proof. intros t H. unfold l_. rewrite sgn_eq, cm_eq by assumption. reflexivity. Qed.

End Width.

(** the signed takum with sign [s] and low bits [u] *)
Definition asm (n : Z) (s : bool) (u : Z) : Z := if s then u - 2 ^ (n - 1) else u.

Lemma low_asm : forall n s u, 1 <= n -> 0 <= u < 2 ^ (n - 1) -> low n (asm n s u) = u.
Proof.
  intros n s u Hn Hu. unfold low, asm. destruct s.
  - apply (mod_mul_small _ _ (-1)); lia.
  - apply Z.mod_small; lia.
Qed.

Lemma asm_low : forall n t, 5 <= n <= 64 -> is_intn n t -> asm n (t <? 0) (low n t) = t.
Proof.
  intros n t Hn Ht. rewrite low_cases by assumption. unfold asm. destruct (t <? 0); lia.
Qed.

Lemma asm_neg : forall n s u, 0 <= u < 2 ^ (n - 1) -> (asm n s u <? 0) = s.
Proof. intros n s u Hu. unfold asm. destruct s; lia. Qed.

Lemma asm_intn : forall n s u, 0 <= u < 2 ^ (n - 1) -> is_intn n (asm n s u).
Proof. intros n s u Hu. unfold asm, is_intn. destruct s; lia. Qed.

Lemma real_low_pos : forall n t, 5 <= n <= 64 -> is_real_takum n t -> 0 < low n t < 2 ^ (n - 1).
Proof.
  intros n t Hn (Ht & H0 & H1). pose proof (low_bounds n Hn t).
  rewrite low_cases in * by assumption. unfold nar in H1.
  destruct (Z.ltb_spec t 0); destruct Ht; lia.
Qed.

Lemma asm_real : forall n s u, 0 < u < 2 ^ (n - 1) -> is_real_takum n (asm n s u).
Proof.
  intros n s u Hu. split; [apply asm_intn; lia|]. unfold asm, nar. destruct s; lia.
Qed.

Lemma code64_bounds : forall n u, 1 <= n <= 64 -> 0 <= u < 2 ^ (n - 1) -> 0 <= code64 n u < 2 ^ 63.
Proof.
  intros n u Hn Hu. unfold code64. replace 63 with ((n - 1) + (64 - n)) by lia.
  rewrite pow2_split by lia. pose proof (pow2_pos (64 - n) ltac:(lia)). nia.
Qed.

Lemma Xn_lt_iff : forall n u v, 1 <= n <= 64 -> 0 <= u < 2 ^ (n - 1) -> 0 <= v < 2 ^ (n - 1) ->
  (u < v <-> Xn n u < Xn n v).
Proof.
  intros n u v Hn Hu Hv. unfold Xn. rewrite <- X_lt_iff by (apply code64_bounds; assumption).
  unfold code64. pose proof (pow2_pos (64 - n) ltac:(lia)). split; intros; nia.
Qed.
