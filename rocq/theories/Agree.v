(** Two mathematical libraries: how far the results are apart.  Inequalities
    between arguments and results. *)
From Coq Require Import ZArith Reals Bool Lia Lra Psatz.
From Flocq Require Import Core.Core IEEE754.BinarySingleNaN.
From Verif Require Import CModel FloatModel Libm LibmSpec Spec CodeFacts SpecFacts ValueFacts WidthFacts WidthApi WidthProps Wrappers WrapApi WrapSpec WrapSpec2 RoundFacts LogConv Faithful RangeFacts.
Local Open Scope R_scope.

Lemma faithful_apart : forall k n z t t', std_width n -> rounds_faithfully k n z t -> rounds_faithfully k n z t' -> (t' - t <= 1)%Z.
Proof.
  intros k n z t t' Sw [[-> ->]|[Nz (R & S & F)]] [[Z1 ->]|[Nz' (R' & S' & F')]]; try congruence; try lia. assert (5 <= n <= 64)%Z as Hn by (pose proof (std_range n Sw); lia).
  destruct (Z_le_gt_dec (t' - t) 1) as [H|H]; [assumption|exfalso].
  assert (is_real_takum n (t + 1) /\ has_sign (Rlt_bool z 0) (t + 1)) as [Ra Sa].
  { destruct R as ((A1 & A2) & A3 & A4), R' as ((B1 & B2) & B3 & B4). unfold has_sign in *. destruct (Rlt_bool z 0); unfold is_real_takum, is_intn, nar in *; lia. }
  destruct (F _ Ra Sa) as [F1 F2]. destruct (F' _ Ra Sa) as [F3 F4].
  destruct (Rlt_bool z 0); unfold has_sign in *; cbn in *.
  - assert (l_ n (t + 1) < l_ n t) as L1 by (apply (l_lt_neg n Hn); try assumption; lia).
    assert (l_ n t' < l_ n (t + 1)) as L2 by (apply (l_lt_neg n Hn); try assumption; lia). lra.
  - assert (l_ n t < l_ n (t + 1)) as L1 by (apply (l_lt_pos n Hn); try assumption; destruct R as (_ & ? & _), Ra as (_ & ? & _); lia).
    assert (l_ n (t + 1) < l_ n t') as L2 by (apply (l_lt_pos n Hn); try assumption; destruct R' as (_ & ? & _), Ra as (_ & ? & _); lia). lra.
Qed.
Lemma faithful_unit : forall k n z t t', std_width n -> rounds_faithfully k n z t -> rounds_faithfully k n z t' -> (Z.abs (t - t') <= 1)%Z.
Proof. intros k n z t t' Sw H H'. pose proof (faithful_apart k n z t t' Sw H H'). pose proof (faithful_apart k n z t' t Sw H' H). lia. Qed.

Theorem unary_agree : forall lm lm' u w t x, c99 lm -> c99 lm' -> w <> W64 -> argument_error u = 0 -> is_intn (bits w) t -> value Linear (bits w) t = Some x -> regular Linear (bits w) u x ->
  exists r r', api_unary Linear lm u w t = Val r /\ api_unary Linear lm' u w t = Val r' /\ (Z.abs (r - r') <= 1)%Z.
Proof.
  intros lm lm' u w t x C C' Nw Ha It Hx Rg. destruct (unary_faithful lm u w t x C Nw Ha It Hx Rg) as (r & E & H). destruct (unary_faithful lm' u w t x C' Nw Ha It Hx Rg) as (r' & E' & H').
  exists r, r'. split; [assumption|]. split; [assumption|]. eapply faithful_unit; [apply (narrow_bits w Nw)|eassumption|eassumption].
Qed.
Theorem binary_agree : forall lm lm' b w s t x y r, c99 lm -> c99 lm' -> w <> W64 -> b <> n_multiplication -> b <> n_division ->
  is_intn (bits w) s -> is_intn (bits w) t -> value Linear (bits w) s = Some x -> value Linear (bits w) t = Some y -> is_value2 b x y r ->
  exists z z', api_binary Linear lm b w s t = Val z /\ api_binary Linear lm' b w s t = Val z' /\ (Z.abs (z - z') <= 1)%Z.
Proof.
  intros lm lm' b w s t x y r C C' Nw H1 H2 Is It Hx Hy Hr. destruct (binary_faithful lm C b w s t x y r Nw H1 H2 Is It Hx Hy Hr) as (z & E & H).
  destruct (binary_faithful lm' C' b w s t x y r Nw H1 H2 Is It Hx Hy Hr) as (z' & E' & H').
  exists z, z'. split; [assumption|]. split; [assumption|]. eapply faithful_unit; [apply (narrow_bits w Nw)|eassumption|eassumption].
Qed.
Theorem integer_power_agree : forall lm lm' w t j x, c99 lm -> c99 lm' -> is_intn (bits w) t -> is_int64 j -> value Linear (bits w) t = Some x -> x <> 0 \/ (0 < j)%Z ->
  exists r r', api_integer_power Linear lm w t j = Val r /\ api_integer_power Linear lm' w t j = Val r' /\ (Z.abs (r - r') <= 1)%Z.
Proof.
  intros lm lm' w t j x C C' It Hj Hx H0. destruct (integer_power_faithful lm C w t j x It Hj Hx H0) as (r & E & H). destruct (integer_power_faithful lm' C' w t j x It Hj Hx H0) as (r' & E' & H').
  exists r, r'. split; [assumption|]. split; [assumption|]. eapply faithful_unit; [|eassumption|eassumption]. destruct w; unfold std_width; simpl; tauto.
Qed.
Theorem root_agree : forall lm lm' w t j x r, c99 lm -> c99 lm' -> w <> W64 -> is_intn (bits w) t -> is_int64 j -> value Linear (bits w) t = Some x -> 0 < x \/ j = 1%Z \/ j = (-1)%Z -> is_root j x r ->
  exists z z', api_root Linear lm w t j = Val z /\ api_root Linear lm' w t j = Val z' /\ (Z.abs (z - z') <= 1)%Z.
Proof.
  intros lm lm' w t j x r C C' Nw It Hj Hx Ho Hr. destruct (root_faithful lm C w t j x r Nw It Hj Hx Ho Hr) as (z & E & H). destruct (root_faithful lm' C' w t j x r Nw It Hj Hx Ho Hr) as (z' & E' & H').
  exists z, z'. split; [assumption|]. split; [assumption|]. eapply faithful_unit; [apply (narrow_bits w Nw)|eassumption|eassumption].
Qed.
Theorem log_from_agree : forall lm lm' n F g g' (y : flt F), c99 lm -> c99 lm' -> log_from_float lm n F g -> log_from_float lm' n F g' -> is_finite y = true ->
  exists t t', g y = Val t /\ g' y = Val t' /\ (Z.abs (t - t') <= 1)%Z.
Proof.
  intros lm lm' n F g g' y C C' Hg Hg' Fy. assert (std_width n) as Sw by (destruct Hg; unfold std_width; tauto).
  destruct (log_from_faithful lm n F g y C Hg Fy) as (t & E & H). destruct (log_from_faithful lm' n F g' y C' Hg' Fy) as (t' & E' & H').
  exists t, t'. split; [assumption|]. split; [assumption|]. eapply faithful_unit; eassumption.
Qed.
