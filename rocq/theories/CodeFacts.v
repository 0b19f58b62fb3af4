(** Facts about the specification: the coordinate is a strictly increasing
    piecewise linear function of the code. *)
From Coq Require Import ZArith Reals Bool Lia Lra.
From Flocq Require Import Core.Core.
From Verif Require Import CModel Spec.
Local Open Scope Z_scope.

(** bias and regime as functions of the four bits D R R R *)
Definition biasZ (DR : Z) : Z :=
  if DR <? 8 then - 2 ^ (8 - DR) + 1 else 2 ^ (DR - 8) - 1.
Definition regZ (DR : Z) : Z := if DR <? 8 then 7 - DR else DR - 8.

(** c + m in units of 2^-59, of the 63 low bits of a 64-bit takum *)
Definition X (w : Z) : Z :=
  biasZ (w / 2 ^ 59) * 2 ^ 59 + (w mod 2 ^ 59) * 2 ^ regZ (w / 2 ^ 59).

(** low n-1 bits, aligned to 64-bit takums *)
Definition low (n t : Z) : Z := t mod 2 ^ (n - 1).
Definition code64 (n u : Z) : Z := u * 2 ^ (64 - n).
Definition Xn (n u : Z) : Z := X (code64 n u).

Lemma DR_cases : forall DR, 0 <= DR < 16 ->
  DR = 0 \/ DR = 1 \/ DR = 2 \/ DR = 3 \/ DR = 4 \/ DR = 5 \/ DR = 6 \/ DR = 7 \/
  DR = 8 \/ DR = 9 \/ DR = 10 \/ DR = 11 \/ DR = 12 \/ DR = 13 \/ DR = 14 \/ DR = 15.
Proof. lia. Qed.

Ltac case_DR H :=
  let K := fresh in
  pose proof (DR_cases _ H) as K;
  repeat (destruct K as [K|K]).

Lemma bias_step : forall DR, 0 <= DR < 16 ->
  biasZ (DR + 1) = biasZ DR + 2 ^ regZ DR.
Proof. intros DR H. case_DR H; subst; reflexivity. Qed.

Lemma regZ_bounds : forall DR, 0 <= DR < 16 -> 0 <= regZ DR <= 7.
Proof. intros DR H. case_DR H; subst; cbv; split; discriminate. Qed.

Lemma biasZ_bounds : forall DR, 0 <= DR <= 16 -> -255 <= biasZ DR <= 255.
Proof.
  intros DR H. assert (DR = 16 \/ 0 <= DR < 16) as [->|H'] by lia.
  - cbv; split; discriminate.
  - case_DR H'; subst; cbv; split; discriminate.
Qed.

Lemma biasZ_mono : forall a b, 0 <= a <= b -> b <= 16 -> biasZ a <= biasZ b.
Proof.
  intros a b Ha Hb.
  assert (forall k, 0 <= k -> a + k <= 16 -> biasZ a <= biasZ (a + k)) as HH.
  { intros k Hk. pattern k. apply natlike_ind; try lia.
    - intros _. rewrite Z.add_0_r. lia.
    - intros x Hx IH Hle. unfold Z.succ. rewrite Z.add_assoc, bias_step by lia.
      specialize (IH ltac:(lia)).
      pose proof (Z.pow_pos_nonneg 2 (regZ (a + x)) ltac:(lia) (proj1 (regZ_bounds (a + x) ltac:(lia)))).
      lia. }
  specialize (HH (b - a) ltac:(lia)). replace (a + (b - a)) with b in HH by lia. apply HH; lia.
Qed.

(** decomposition of a 63-bit code *)
Lemma code_split : forall w, 0 <= w < 2 ^ 63 ->
  exists DR y, w = DR * 2 ^ 59 + y /\ 0 <= y < 2 ^ 59 /\ 0 <= DR < 16 /\
    w / 2 ^ 59 = DR /\ w mod 2 ^ 59 = y.
Proof.
  intros w Hw. exists (w / 2 ^ 59), (w mod 2 ^ 59).
  pose proof (Z.div_mod w (2 ^ 59) ltac:(lia)).
  pose proof (Z.mod_pos_bound w (2 ^ 59) ltac:(lia)).
  repeat split; lia.
Qed.

Lemma X_eq : forall DR y, 0 <= y < 2 ^ 59 -> X (DR * 2 ^ 59 + y) = biasZ DR * 2 ^ 59 + y * 2 ^ regZ DR.
Proof.
  intros DR y Hy. unfold X.
  rewrite Z.div_add_l, Z.div_small, Z.add_0_r by lia.
  rewrite (Z.add_comm (DR * _)), Z.mod_add, Z.mod_small by lia. reflexivity.
Qed.

Lemma X_piece : forall DR y, 0 <= DR < 16 -> 0 <= y < 2 ^ 59 ->
  biasZ DR * 2 ^ 59 <= X (DR * 2 ^ 59 + y) < biasZ (DR + 1) * 2 ^ 59.
Proof.
  intros DR y HD Hy. rewrite X_eq, bias_step by lia.
  pose proof (Z.pow_pos_nonneg 2 (regZ DR) ltac:(lia) (proj1 (regZ_bounds _ HD))).
  split; nia.
Qed.

Lemma X_strict_mono : forall w1 w2, 0 <= w1 < w2 -> w2 < 2 ^ 63 -> X w1 < X w2.
Proof.
  intros w1 w2 H1 H2.
  destruct (code_split w1 ltac:(lia)) as (D1 & y1 & E1 & Hy1 & HD1 & _ & _).
  destruct (code_split w2 ltac:(lia)) as (D2 & y2 & E2 & Hy2 & HD2 & _ & _).
  assert (D1 < D2 \/ D1 = D2) as [HD|HD] by (subst; nia).
  - pose proof (X_piece D1 y1 HD1 Hy1). pose proof (X_piece D2 y2 HD2 Hy2).
    pose proof (biasZ_mono (D1 + 1) D2 ltac:(lia) ltac:(lia)). rewrite E1, E2. nia.
  - subst. rewrite !X_eq by lia.
    pose proof (Z.pow_pos_nonneg 2 (regZ D2) ltac:(lia) (proj1 (regZ_bounds _ HD2))).
    nia.
Qed.

Lemma X_lt_iff : forall w1 w2, 0 <= w1 < 2 ^ 63 -> 0 <= w2 < 2 ^ 63 ->
  (w1 < w2 <-> X w1 < X w2).
Proof.
  intros. split; intros.
  - apply X_strict_mono; lia.
  - destruct (Z.lt_trichotomy w1 w2) as [K|[K|K]]; try lia.
    + subst; lia.
    + pose proof (X_strict_mono w2 w1 ltac:(lia) ltac:(lia)); lia.
Qed.

Lemma X_inj : forall w1 w2, 0 <= w1 < 2 ^ 63 -> 0 <= w2 < 2 ^ 63 -> X w1 = X w2 -> w1 = w2.
Proof.
  intros w1 w2 H1 H2 H.
  destruct (Z.lt_trichotomy w1 w2) as [K|[K|K]]; auto;
    [apply (X_lt_iff w1 w2) in K|apply (X_lt_iff w2 w1) in K]; lia.
Qed.

(** symmetry: complementing the code negates the coordinate *)
Lemma X_neg : forall w, 0 < w < 2 ^ 63 -> X (2 ^ 63 - w) = - X w.
Proof.
  intros w Hw.
  destruct (code_split w ltac:(lia)) as (D & y & E & Hy & HD & _ & _).
  assert (y = 0 \/ 0 < y) as [->|Hy0] by lia.
  - replace (2 ^ 63 - w) with ((16 - D) * 2 ^ 59 + 0) by lia. rewrite E.
    rewrite !X_eq by lia.
    assert (1 <= D < 16) as HD' by lia. clear - HD'.
    case_DR (conj (Z.le_trans 0 1 D ltac:(lia) (proj1 HD')) (proj2 HD')); try lia; subst; reflexivity.
  - replace (2 ^ 63 - w) with ((15 - D) * 2 ^ 59 + (2 ^ 59 - y)) by lia. rewrite E.
    rewrite !X_eq by lia.
    case_DR HD; subst D;
      match goal with |- context [regZ ?a * _ ] => idtac | _ => idtac end;
      cbv [biasZ regZ]; cbn [Z.ltb Z.sub Z.compare Z.add Z.opp Z.pos_sub Pos.compare Pos.compare_cont Pos.pred_double Z.succ_double Z.pred_double Z.double Pos.add Pos.succ];
      lia.
Qed.

Lemma X_bounds : forall w, 0 <= w < 2 ^ 63 -> - 255 * 2 ^ 59 <= X w < 255 * 2 ^ 59.
Proof.
  intros w Hw.
  destruct (code_split w Hw) as (D & y & E & Hy & HD & _ & _).
  pose proof (X_piece D y HD Hy). rewrite E.
  pose proof (biasZ_bounds D ltac:(lia)). pose proof (biasZ_bounds (D+1) ltac:(lia)). lia.
Qed.
