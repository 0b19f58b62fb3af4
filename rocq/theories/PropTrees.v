(** Properties C134-C136: sums and products in any order.  Theorems only; proofs
    are in Trees.v. *)
From Coq Require Import ZArith Reals Bool List Permutation Lia Lra.
From Flocq Require Import Core.Core.
From Verif Require Import CModel FloatModel Spec Arith LogApi LinApi Wrappers ErrorSpec Sums ListSpec TreeSpec Trees MiscProps WidthFacts.
Import ListNotations.
Local Open Scope R_scope.

(** C134: linear takums added up in any order, for example pairwise; the error
    grows with the depth of the parentheses, not with the number of summands *)
Theorem C134_sum_in_any_order :
  forall n f, linear_addition n f -> n <> 8%Z -> forall b xs, have_values Linear n (operands b) xs ->
    let u := roundoff n (if (n <? 64)%Z then 1 else 0) in
    (1 + u) ^ depth b * (sum_of_magnitudes xs + INR (calls b) * powerRZ 2 (-254)) < powerRZ 2 254 ->
    exists t y, evaluate f b = Val t /\ is_intn n t /\ value Linear n t = Some y /\
      Rabs (y - sum xs) <=
        ((1 + u) ^ depth b - 1) * sum_of_magnitudes xs + INR (calls b) * (1 + u) ^ depth b * powerRZ 2 (-254).
Proof. exact tree_sum. Qed.
Print Assumptions C134_sum_in_any_order.
(** sums of numbers that are not negative have a small relative error *)
Theorem C134_positive_sum_in_any_order :
  forall n f b xs, linear_addition n f -> n <> 8%Z -> have_values Linear n (operands b) xs ->
    Forall (fun x => x = 0 \/ powerRZ 2 (-254) <= x) xs ->
    let u := roundoff n (if (n <? 64)%Z then 1 else 0) in
    (1 + u) ^ depth b * sum xs < powerRZ 2 254 ->
    exists t y, evaluate f b = Val t /\ is_intn n t /\ value Linear n t = Some y /\
      (1 - u) ^ depth b * sum xs <= y <= (1 + u) ^ depth b * sum xs.
Proof. exact tree_sum_positive. Qed.
Print Assumptions C134_positive_sum_in_any_order.
(** so that two orders, parentheses and sequence of the summands, agree up to
    that error *)
Theorem C134_two_orders_agree :
  forall n f b b' xs, linear_addition n f -> n <> 8%Z ->
    Permutation (operands b) (operands b') -> have_values Linear n (operands b) xs ->
    Forall (fun x => x = 0 \/ powerRZ 2 (-254) <= x) xs ->
    let u := roundoff n (if (n <? 64)%Z then 1 else 0) in
    (1 + u) ^ depth b * sum xs < powerRZ 2 254 -> (1 + u) ^ depth b' * sum xs < powerRZ 2 254 ->
    exists t y t' y', evaluate f b = Val t /\ value Linear n t = Some y /\
      evaluate f b' = Val t' /\ value Linear n t' = Some y' /\
      (1 - u) ^ depth b' * y <= (1 + u) ^ depth b * y' /\ (1 - u) ^ depth b * y' <= (1 + u) ^ depth b' * y.
Proof. exact tree_orders. Qed.
Print Assumptions C134_two_orders_agree.
(** a sum of takums that are not negative is not below any of them, all widths *)
Theorem C134_sum_above_summands :
  forall n f b, linear_addition n f -> Forall (fun t => no_nar n t /\ (0 <= t)%Z) (operands b) ->
    exists r, evaluate f b = Val r /\ no_nar n r /\ (0 <= r)%Z /\ Forall (fun t => (t <= r)%Z) (operands b).
Proof. exact tree_above. Qed.
Print Assumptions C134_sum_above_summands.

(** C135: takums multiplied together in any order *)
Theorem C135_linear_product_in_any_order :
  forall n f b xs, linear_multiplication n f -> n <> 8%Z -> have_values Linear n (operands b) xs ->
    let u := roundoff n (if (n =? 16)%Z then 1 else 0) in
    (forall p ys, part p b -> have_values Linear n (operands p) ys -> moderate Linear (product ys)) ->
    INR (calls b) * u < / 2 ->
    exists t y d, evaluate f b = Val t /\ is_intn n t /\ value Linear n t = Some y /\
      y = product xs * d /\ (1 - u) ^ calls b <= d <= (1 + u) ^ calls b.
Proof. exact lin_tree_product. Qed.
Print Assumptions C135_linear_product_in_any_order.
Theorem C135_log_product_in_any_order :
  forall n f b xs, log_multiplication n f -> n <> 8%Z -> have_values Logarithmic n (operands b) xs ->
    let u := roundoff n (if (n <? 64)%Z then 1 else 0) in
    (forall p ys, part p b -> have_values Logarithmic n (operands p) ys -> moderate Logarithmic (product ys)) ->
    INR (calls b) * u < / 2 ->
    exists t y d, evaluate f b = Val t /\ is_intn n t /\ value Logarithmic n t = Some y /\
      y = product xs * d /\ (1 - u) ^ calls b <= d <= (1 + u) ^ calls b.
Proof. exact log_tree_product. Qed.
Print Assumptions C135_log_product_in_any_order.
(** the sign does not depend on the order, all widths *)
Theorem C135_sign_in_any_order :
  forall k n f b, any_multiplication k n f -> Forall (no_nar n) (operands b) ->
    exists r, evaluate f b = Val r /\ no_nar n r /\ Z.sgn r = signs (operands b).
Proof. exact tree_signs. Qed.
Print Assumptions C135_sign_in_any_order.
(** the sum or product is NaR exactly if an operand is, all widths *)
Theorem C135_nar_in_any_order :
  forall n f b, linear_addition n f \/ (exists k, any_multiplication k n f) -> Forall (is_intn n) (operands b) ->
    exists r, evaluate f b = Val r /\ is_intn n r /\ (r = nar n <-> In (nar n) (operands b)).
Proof. exact tree_nar. Qed.
Print Assumptions C135_nar_in_any_order.

(** (1 + 1) + (1 + 1) and ((1 * 1) * 1) * 1 meet the hypotheses, and orders differ
    for other operands *)
Example C134_case :
  let one := (2 ^ 14)%Z in let u := roundoff 16 1 in
  let b := Join (Join (One one) (One one)) (Join (One one) (One one)) in
  let b' := Join (Join (Join (One one) (One one)) (One one)) (One one) in
  linear_addition 16 (takum_linear_addition x86_64 W16) /\ linear_multiplication 16 (takum_linear_multiplication x86_64 W16) /\
  log_multiplication 16 takum16_multiplication /\
  depth b = 2%nat /\ depth b' = 3%nat /\ calls b = 3%nat /\ Permutation (operands b) (operands b') /\
  have_values Linear 16 (operands b) [1; 1; 1; 1] /\ have_values Logarithmic 16 (operands b) [1; 1; 1; 1] /\
  Forall (fun x => x = 0 \/ powerRZ 2 (-254) <= x) [1; 1; 1; 1] /\
  (1 + u) ^ depth b * (sum_of_magnitudes [1; 1; 1; 1] + INR (calls b) * powerRZ 2 (-254)) < powerRZ 2 254 /\
  (1 + u) ^ depth b' * sum [1; 1; 1; 1] < powerRZ 2 254 /\
  (forall p ys, part p b -> have_values Linear 16 (operands p) ys -> moderate Linear (product ys)) /\
  (forall p ys, part p b -> have_values Logarithmic 16 (operands p) ys -> moderate Logarithmic (product ys)) /\
  INR (calls b) * u < / 2 /\
  evaluate (takum_linear_addition x86_64 W16) (Join (Join (One 0x4000) (One 8832)) (Join (One 8832) (One 8832)))%Z = Val 0x4001%Z /\
  evaluate (takum_linear_addition x86_64 W16) (Join (Join (Join (One 0x4000) (One 8832)) (One 8832)) (One 8832))%Z = Val 0x4000%Z.
Proof. exact tree_case. Qed.

(** C136: addition and multiplication are associative, and multiplication is
    distributive over addition: refuted at every width *)
Theorem C136_associative_distributive_refuted :
  (forall n f, linear_addition n f -> exists a b c s t, no_nar n a /\ no_nar n b /\ no_nar n c /\
     evaluate f (Join (Join (One a) (One b)) (One c)) = Val s /\
     evaluate f (Join (One a) (Join (One b) (One c))) = Val t /\ s <> t) /\
  (forall k n f, any_multiplication k n f -> exists a b c s t, no_nar n a /\ no_nar n b /\ no_nar n c /\
     evaluate f (Join (Join (One a) (One b)) (One c)) = Val s /\
     evaluate f (Join (One a) (Join (One b) (One c))) = Val t /\ s <> t) /\
  (forall n f g, linear_addition n f -> linear_multiplication n g ->
     exists a b c s t, no_nar n a /\ no_nar n b /\ no_nar n c /\
     bind (f b c) (g a) = Val s /\ bind (g a b) (fun p => bind (g a c) (f p)) = Val t /\ s <> t).
Proof. exact not_associative. Qed.
Print Assumptions C136_associative_distributive_refuted.
