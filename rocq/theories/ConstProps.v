(** The limits of takum.h. *)
From Coq Require Import ZArith Reals Bool List Lia Lra.
From Flocq Require Import Core.Core.
From Verif Require Import CModel Spec ValueFacts WidthProps Constants ConstSpec ConstFacts GammaFacts.
Local Open Scope R_scope.

Lemma zero_value : forall k n, value k n 0 = Some 0.
Proof. intros k n. unfold value. destruct (Z.eq_dec 0 0); [reflexivity|contradiction]. Qed.
Lemma limits_ok : forall k n a b c, In (n, a, b, c) limits ->
  is_intn n a /\ is_intn n b /\ is_intn n c /\ value k n a = None /\
  exists p q, value k n b = Some p /\ value k n c = Some q /\ 0 < p /\
    forall t x, is_intn n t -> value k n t = Some x -> 0 < x -> p <= x <= q.
Proof.
  intros k n a b c H.
  assert ((n = 8 \/ n = 16 \/ n = 32 \/ n = 64)%Z /\ a = nar n /\ b = 1%Z /\ c = (2 ^ (n - 1) - 1)%Z) as (Hn & -> & -> & ->).
  { destruct H as [H|[H|[H|[H|[]]]]]; injection H as <- <- <- <-; (split; [lia|]); vm_compute; auto. }
  assert (6 <= n <= 64)%Z as Hr by lia. assert (2 ^ 5 <= 2 ^ (n - 1))%Z as H5 by (apply Z.pow_le_mono_r; lia).
  assert (2 ^ 5 = 32)%Z as E5 by reflexivity.
  assert (forall t, is_intn n t -> t <> nar n -> exists x, value k n t = Some x) as V.
  { intros t _ N. unfold value. destruct (Z.eq_dec t 0); [eexists; reflexivity|]. destruct (Z.eq_dec t (nar n)); [contradiction|eexists; reflexivity]. }
  assert (is_intn n (nar n) /\ is_intn n 1 /\ is_intn n (2 ^ (n - 1) - 1) /\ is_intn n 0) as (I1 & I2 & I3 & I4) by (unfold is_intn, nar; lia).
  split; [assumption|]. split; [assumption|]. split; [assumption|]. split.
  { unfold value. destruct (Z.eq_dec (nar n) 0); [unfold nar in *; lia|]. destruct (Z.eq_dec (nar n) (nar n)); [reflexivity|contradiction]. }
  destruct (V 1%Z I2 ltac:(unfold nar; lia)) as [p Ep]. destruct (V _ I3 ltac:(unfold nar; lia)) as [q Eq].
  exists p, q. split; [assumption|]. split; [assumption|]. pose proof (zero_value k n) as E0.
  assert (forall t t' x x', is_intn n t -> is_intn n t' -> value k n t = Some x -> value k n t' = Some x' -> ((t < t')%Z <-> x < x')) as L.
  { intros t t' x x'. apply value_lt. lia. }
  split; [apply (L 0%Z 1%Z 0 p); (assumption || lia)|].
  intros t x It Et Px. assert (0 < t)%Z by (apply (L 0%Z t 0 x); assumption). unfold is_intn in It.
  split; apply Rnot_lt_le; intros K.
  - apply (L t 1%Z x p) in K; (assumption || lia).
  - apply (L (2 ^ (n - 1) - 1)%Z t q x) in K; (assumption || lia).
Qed.

Lemma constants_ok : forall k n c t x, header k n c t -> is_constant c x ->
  ~ (k = Logarithmic /\ n = 64%Z /\ (c = c_6_PI \/ c = c_6_PI_OVER_5)) -> rounds k n x t.
Proof.
  intros k n c t x Hh Hx N. apply (all_constants_rounded k n c t x Hh Hx).
  destruct (wrong k n c) eqn:W; [|reflexivity]. exfalso. apply N.
  destruct k; [|discriminate]. unfold wrong in W. destruct c; try discriminate W; apply Z.eqb_eq in W; auto.
Qed.

Lemma find_const : forall c : constant, exists a b, In (c, a, b) constants.
Proof. intros []; unfold constants; do 2 eexists; repeat (try (left; reflexivity); right). Qed.
Definition in_range (e : constant * (Z * Z * Z * Z) * (Z * Z * Z * Z)) : bool :=
  let '(c, (a8, a16, a32, a64), (b8, b16, b32, b64)) := e in
  let ok n t := ((- 2 ^ (n - 1) <=? t) && (t <? 2 ^ (n - 1)))%Z in
  ok 8%Z a8 && ok 16%Z a16 && ok 32%Z a32 && ok 64%Z a64 && ok 8%Z b8 && ok 16%Z b16 && ok 32%Z b32 && ok 64%Z b64.
Lemma in_range_all : forallb in_range constants = true.
Proof. vm_compute. reflexivity. Qed.
Lemma constants_exist : forall k n c, (n = 8 \/ n = 16 \/ n = 32 \/ n = 64)%Z ->
  (exists t, header k n c t /\ is_intn n t) /\ exists x, is_constant c x.
Proof.
  intros k n c Hn. split.
  - destruct (find_const c) as ((((a8 & a16) & a32) & a64) & (((b8 & b16) & b32) & b64) & H).
    pose proof (forallb_use _ _ _ in_range_all H) as R. unfold in_range in R. cbv zeta in R. rewrite !andb_true_iff in R.
    destruct R as (((((((R1 & R2) & R3) & R4) & R5) & R6) & R7) & R8).
    assert (forall m t, (- 2 ^ (m - 1) <=? t)%Z = true /\ (t <? 2 ^ (m - 1))%Z = true -> is_intn m t) as K.
    { intros m t [A B]. apply Z.leb_le in A. apply Z.ltb_lt in B. split; assumption. }
    apply K in R1, R2, R3, R4, R5, R6, R7, R8.
    destruct k, Hn as [->|[->|[->| ->]]];
      [exists a8|exists a16|exists a32|exists a64|exists b8|exists b16|exists b32|exists b64];
      (split; [econstructor; exact H|assumption]).
  - destruct c; cbn [is_constant]; try (eexists; reflexivity). exact gamma_exists.
Qed.

Lemma six_pi_off : exists t u, header Logarithmic 64 c_6_PI t /\ is_constant c_6_PI (6 * PI) /\
  ~ rounds Logarithmic 64 (6 * PI) t /\ rounds Logarithmic 64 (6 * PI) (t - 1) /\
  header Logarithmic 64 c_6_PI_OVER_5 u /\ is_constant c_6_PI_OVER_5 (6 * PI / 5) /\
  ~ rounds Logarithmic 64 (6 * PI / 5) u /\ rounds Logarithmic 64 (6 * PI / 5) (u - 1).
Proof.
  destruct six_pi_wrong as (A & B & C). destruct six_pi_5_wrong as (D & E & F).
  do 2 eexists. split; [exact A|]. split; [reflexivity|]. split; [exact B|]. split; [exact C|].
  split; [exact D|]. split; [reflexivity|]. split; [exact E|exact F].
Qed.
