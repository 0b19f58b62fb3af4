(** Properties C132 and C133: the absolute value of the difference of linear
    takums as a distance.  Theorems only; proofs are in Distance.v. *)
From Coq Require Import ZArith Reals Bool.
From Verif Require Import CModel FloatModel Spec Arith Wrappers LogApi LinApi Distance.
Local Open Scope Z_scope.

(** C132: |a - b| = |b - a|, which is 0 exactly if a = b *)
Theorem C132_distance :
  forall n sub abs a b, linear_subtraction n sub -> absolute_value Linear n abs ->
    is_intn n a -> is_intn n b -> a <> nar n -> b <> nar n ->
    exists u v d, sub a b = Val u /\ sub b a = Val v /\ abs u = Val d /\ abs v = Val d /\
                  is_intn n d /\ 0 <= d /\ (d = 0 <-> a = b).
Proof. exact distance. Qed.
Print Assumptions C132_distance.
(** |a + b| <= |a| + |b| *)
Theorem C132_triangle_inequality :
  forall n add abs a b, linear_addition n add -> absolute_value Linear n abs ->
    is_intn n a -> is_intn n b -> a <> nar n -> b <> nar n ->
    exists a' b' u v s, abs a = Val a' /\ abs b = Val b' /\ add a b = Val u /\ abs u = Val v /\
                        add a' b' = Val s /\ v <= s.
Proof. exact triangle. Qed.
Print Assumptions C132_triangle_inequality.
(** ||a| - |b|| <= |a - b| *)
Theorem C132_reverse_triangle_inequality :
  forall n sub abs a b, linear_subtraction n sub -> absolute_value Linear n abs ->
    is_intn n a -> is_intn n b -> a <> nar n -> b <> nar n ->
    exists a' b' u v s r, abs a = Val a' /\ abs b = Val b' /\ sub a b = Val u /\ abs u = Val v /\
                          sub a' b' = Val s /\ abs s = Val r /\ r <= v.
Proof. exact reverse_triangle. Qed.
Print Assumptions C132_reverse_triangle_inequality.
Example C132_case : linear_subtraction 16 (takum_linear_subtraction x86_64 W16) /\
  linear_addition 16 (takum_linear_addition x86_64 W16) /\ absolute_value Linear 16 takum_linear16_absolute /\
  is_intn 16 (-0x5123) /\ is_intn 16 0x4035 /\ -0x5123 <> nar 16 /\ 0x4035 <> nar 16 /\
  takum_linear_subtraction x86_64 W16 (-0x5123) 0x4035 = Val (-0x5165) /\
  takum_linear_addition x86_64 W16 0x5123 0x4035 = Val 0x5165.
Proof. exact distance_case. Qed.

(** C133: |a - c| <= |a - b| + |b - c|, refuted at every width *)
Theorem C133_distance_is_a_metric_refuted :
  forall n sub add abs, linear_subtraction n sub -> linear_addition n add -> absolute_value Linear n abs ->
    ~ (forall a b c u v w u' v' w' s, is_intn n a -> is_intn n b -> is_intn n c ->
         a <> nar n -> b <> nar n -> c <> nar n ->
         sub a c = Val u -> sub a b = Val v -> sub b c = Val w ->
         abs u = Val u' -> abs v = Val v' -> abs w = Val w' ->
         add v' w' = Val s -> u' <= s).
Proof. exact distance_metric_refuted. Qed.
Print Assumptions C133_distance_is_a_metric_refuted.
(** the witnesses: a is 1, |a - c| is greater than 1, |a - b| = 1 and |a - b| + |b - c| = 1 *)
Example C133_case :
  (takum_linear_subtraction x86_64 W8 0x40 (-47) = Val 0x41 /\
   takum_linear_subtraction x86_64 W8 0x40 (-45) = Val 0x40 /\
   takum_linear_subtraction x86_64 W8 (-45) (-47) = Val 45 /\
   takum_linear_addition x86_64 W8 0x40 45 = Val 0x40) /\
  (takum_linear_subtraction x86_64 W16 0x4000 (-9088) = Val 0x4001 /\
   takum_linear_subtraction x86_64 W16 0x4000 (-8832) = Val 0x4000 /\
   takum_linear_subtraction x86_64 W16 (-8832) (-9088) = Val 8832 /\
   takum_linear_addition x86_64 W16 0x4000 8832 = Val 0x4000) /\
  (takum_linear_subtraction x86_64 W32 0x40000000 (-432013312) = Val 0x40000001 /\
   takum_linear_subtraction x86_64 W32 0x40000000 (-423624704) = Val 0x40000000 /\
   takum_linear_subtraction x86_64 W32 (-423624704) (-432013312) = Val 423624704 /\
   takum_linear_addition x86_64 W32 0x40000000 423624704 = Val 0x40000000) /\
  (takum_linear_subtraction x86_64 W64 0x4000000000000000 (-1215971899390033920) = Val 0x4000000000000001 /\
   takum_linear_subtraction x86_64 W64 0x4000000000000000 (-1197957500880551936) = Val 0x4000000000000000 /\
   takum_linear_subtraction x86_64 W64 (-1197957500880551936) (-1215971899390033920) = Val 1197957500880551936 /\
   takum_linear_addition x86_64 W64 0x4000000000000000 1197957500880551936 = Val 0x4000000000000000).
Proof. exact distance_not_metric. Qed.
