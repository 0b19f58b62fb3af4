(** Properties C62 and C63: conversions between logarithmic and linear takums.
    Theorems only; proofs are in KindConv.v. *)
From Coq Require Import ZArith Reals Bool Lia Lra.
From Flocq Require Import Core.Core.
From Verif Require Import CModel FloatModel Libm LibmSpec Conversion Spec WrapApi LibmIdeal ValueFacts WidthFacts LinArithRefute MiscProps KindConv.
Local Open Scope R_scope.

(** C62: linear to logarithmic is faithful *)
Theorem C62_linear_to_log_faithful :
  forall lm n m f t x, c99 lm -> linear_to_log lm n m f -> is_intn n t -> value Linear n t = Some x ->
    exists t', f t = Val t' /\ rounds_faithfully Logarithmic m x t'.
Proof. exact linear_to_log_faithful. Qed.
Print Assumptions C62_linear_to_log_faithful.
(** logarithmic to linear is faithful for a number close to the argument *)
Theorem C62_log_to_linear_accurate :
  forall lm n m f t x, c99 lm -> log_to_linear lm n m f -> is_intn n t -> value Logarithmic n t = Some x ->
    exists t' z, f t = Val t' /\
      Rabs (z - x) <= bpow radix2 (if (Z.eqb n 64 || Z.eqb m 64)%bool then -60 else -49) * (Rabs (log_coord x) + 1) * Rabs x /\
      rounds_faithfully Linear m z t'.
Proof. exact log_to_linear_faithful. Qed.
Print Assumptions C62_log_to_linear_accurate.
Theorem C62_linear_to_log_nar :
  forall lm n m f, linear_to_log lm n m f -> f (nar n) = Val (nar m).
Proof. exact linear_to_log_nar. Qed.
Print Assumptions C62_linear_to_log_nar.
Theorem C62_log_to_linear_nar :
  forall lm n m f, c99 lm -> log_to_linear lm n m f -> f (nar n) = Val (nar m).
Proof. exact log_to_linear_nar. Qed.
Print Assumptions C62_log_to_linear_nar.
Example C62_case : c99 ideal /\ linear_to_log ideal 16 32 (takum32_from_takum_linear16 x86_64 ideal) /\
  log_to_linear ideal 64 8 (takum_linear8_from_takum64 x86_64 ideal) /\ is_intn 16 (2 ^ 14) /\ value Linear 16 (2 ^ 14) = Some 1.
Proof.
  split; [exact ideal_c99|]. split; [constructor|]. split; [constructor|].
  destruct (value_one_k Linear 16 ltac:(unfold std_width; tauto)). split; assumption.
Qed.

(** C63: through a wider takum of the other kind and back *)
Theorem C63_log_linear_log :
  forall lm n m f g t, c99 lm -> log_to_linear lm n m f -> linear_to_log lm m n g -> (n < m)%Z -> (32 <= m)%Z -> is_intn n t ->
    exists t', f t = Val t' /\ g t' = Val t.
Proof. exact log_linear_log. Qed.
Print Assumptions C63_log_linear_log.
(** here the number must be in the range of logarithmic takums *)
Theorem C63_linear_log_linear :
  forall lm n m f g t x, c99 lm -> linear_to_log lm n m f -> log_to_linear lm m n g -> (n < m)%Z -> (32 <= m)%Z -> is_intn n t ->
    value Linear n t = Some x -> Rabs (log_coord x) <= 254 ->
    exists t', f t = Val t' /\ g t' = Val t.
Proof. exact linear_log_linear. Qed.
Print Assumptions C63_linear_log_linear.
Example C63_case : c99 ideal /\ log_to_linear ideal 16 32 (takum_linear32_from_takum16 x86_64 ideal) /\
  linear_to_log ideal 32 16 (takum16_from_takum_linear32 x86_64 ideal) /\
  is_intn 16 (2 ^ 14) /\ value Linear 16 (2 ^ 14) = Some 1 /\ Rabs (log_coord 1) <= 254.
Proof.
  split; [exact ideal_c99|]. split; [constructor|]. split; [constructor|].
  destruct (value_one_k Linear 16 ltac:(unfold std_width; tauto)). split; [assumption|]. split; [assumption|].
  unfold log_coord. rewrite Rabs_R1, ln_1, Rmult_0_r, Rabs_R0. lra.
Qed.
