(** Properties C40, C50 and C51: the constants of takum.h.  Theorems only;
    proofs are in ConstFacts.v, GammaFacts.v and ConstProps.v. *)
From Coq Require Import ZArith Reals Bool List Lia Lra.
From Flocq Require Import Core.Core.
From Verif Require Import Spec Constants ConstSpec ConstFacts GammaFacts ConstProps.
Local Open Scope Z_scope.

(** C40: every predefined constant is the correctly rounded takum of the
    number it is named after - except two, see C50 *)
Theorem C40_constants_correctly_rounded :
  forall k n c t x, header k n c t -> is_constant c x ->
    ~ (k = Logarithmic /\ n = 64 /\ (c = c_6_PI \/ c = c_6_PI_OVER_5)) ->
    rounds k n x t.
Proof. exact constants_ok. Qed.
Print Assumptions C40_constants_correctly_rounded.
(** every name has a value in each of the eight formats, and stands for a real
    number - the limit in the definition of GAMMA exists *)
Theorem C40_constants_exist :
  forall k n c, n = 8 \/ n = 16 \/ n = 32 \/ n = 64 ->
    (exists t, header k n c t /\ is_intn n t) /\ exists x, is_constant c x.
Proof. exact constants_exist. Qed.
Print Assumptions C40_constants_exist.
Example C40_case : header Linear 64 c_PI 5352667610708919826 /\ header Logarithmic 32 c_GAMMA 932875042.
Proof. split; [eapply header_lin64|eapply header_log32]; unfold constants; repeat (try (left; reflexivity); right). Qed.

(** C50: all constants are correctly rounded: false of TAKUM64_6_PI and
    TAKUM64_6_PI_OVER_5, which are one unit in the last place too large *)
Theorem C50_all_constants_correctly_rounded_refuted :
  exists t u, header Logarithmic 64 c_6_PI t /\ is_constant c_6_PI (6 * PI) /\
    ~ rounds Logarithmic 64 (6 * PI) t /\ rounds Logarithmic 64 (6 * PI) (t - 1) /\
    header Logarithmic 64 c_6_PI_OVER_5 u /\ is_constant c_6_PI_OVER_5 (6 * PI / 5) /\
    ~ rounds Logarithmic 64 (6 * PI / 5) u /\ rounds Logarithmic 64 (6 * PI / 5) (u - 1).
Proof. exact six_pi_off. Qed.
Print Assumptions C50_all_constants_correctly_rounded_refuted.

(** C51: NAR is NaR, POSITIVE_MINIMUM and POSITIVE_MAXIMUM are the least and
    the greatest positive number of the format *)
Theorem C51_limits :
  forall k n a b c, In (n, a, b, c) limits ->
    is_intn n a /\ is_intn n b /\ is_intn n c /\ value k n a = None /\
    exists p q, value k n b = Some p /\ value k n c = Some q /\ (0 < p)%R /\
      forall t x, is_intn n t -> value k n t = Some x -> (0 < x)%R -> (p <= x <= q)%R.
Proof. exact limits_ok. Qed.
Print Assumptions C51_limits.
Example C51_case : In (16, -32768, 1, 32767) limits.
Proof. simpl. auto. Qed.
