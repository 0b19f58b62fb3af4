(** Properties C93 and C94: changing the width in two steps.  Theorems only;
    proofs are in WidthSteps.v. *)
From Coq Require Import ZArith Reals Bool.
From Verif Require Import CModel WidthConv Spec WidthFacts WidthApi WidthSteps Negations.
Local Open Scope Z_scope.

(** C93 is false of the code for all pairs of steps: the first step may round
    to a number half-way between two takums of the last width *)
Theorem C93_narrowing_in_two_steps_refuted :
  forall k A B C f g h, narrowing k A B f -> narrowing k B C g -> narrowing k A C h ->
    exists t, is_intn A t /\ (let! u := f t in g u) <> h t.
Proof. exact two_steps_differ. Qed.
Print Assumptions C93_narrowing_in_two_steps_refuted.

(** C94: two steps are at most one unit off the single one *)
Theorem C94_narrowing_in_two_steps_near :
  forall k A B C f g h t, narrowing k A B f -> narrowing k B C g -> narrowing k A C h -> is_intn A t ->
    exists u v v', f t = Val u /\ g u = Val v /\ h t = Val v' /\ Z.abs (v - v') <= 1.
Proof. exact narrow_twice_near. Qed.
Print Assumptions C94_narrowing_in_two_steps_near.
(** widening in two steps is widening in one *)
Theorem C94_widening_in_two_steps :
  forall k A B C f g h t, widening k A B f -> widening k B C g -> widening k A C h -> is_intn A t ->
    exists u, f t = Val u /\ g u = h t.
Proof. exact widen_twice. Qed.
Print Assumptions C94_widening_in_two_steps.
(** and so is widening too far and narrowing again *)
Theorem C94_widening_then_narrowing :
  forall k A B C f g h t, widening k A B f -> widening k A C h -> narrowing k C B g -> is_intn A t ->
    exists u, h t = Val u /\ g u = f t.
Proof. exact widen_then_narrow. Qed.
Print Assumptions C94_widening_then_narrowing.
Example C94_case :
  narrowing Linear 64 16 takum_linear16_from_takum_linear64 /\ narrowing Linear 16 8 takum_linear8_from_takum_linear16 /\
  narrowing Linear 64 8 takum_linear8_from_takum_linear64 /\ widening Logarithmic 8 16 takum16_from_takum8 /\
  widening Logarithmic 16 64 takum64_from_takum16 /\ widening Logarithmic 8 64 takum64_from_takum8 /\
  narrowing Logarithmic 64 16 takum16_from_takum64 /\ is_intn 8 (-77) /\ is_intn 64 0x4080000000000001.
Proof. do 7 (split; [constructor|]). split; vm_compute; split; discriminate || reflexivity. Qed.
