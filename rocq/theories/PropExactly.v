(** Properties C95 to C98: exact squares and powers, and computing in a wider
    format.  Theorems only; proofs are in Exactly.v. *)
From Coq Require Import ZArith Reals Bool Lra Lia.
From Verif Require Import CModel FloatModel WidthConv Arith Wrappers Spec SpecFacts WidthApi LogApi LinApi ValueFacts CalcFacts Exactly Negations.
Local Open Scope R_scope.

(** C95: squares of 16, 32 and 64 bit takums are exact *)
Theorem C95_square_exact :
  forall n f t x, log_multiplication n f -> n <> 8%Z -> is_intn n t -> value Logarithmic n t = Some x ->
    (x = 0 \/ exp (- 255 / 4) < Rabs x < exp (255 / 4)) ->
    exists u, f t t = Val u /\ is_intn n u /\ value Logarithmic n u = Some (x * x).
Proof. exact square_exact. Qed.
Print Assumptions C95_square_exact.
Theorem C95_square_root_of_square :
  forall n f g t x, log_multiplication n f -> log_square_root n g -> n <> 8%Z -> is_intn n t -> value Logarithmic n t = Some x ->
    (x = 0 \/ exp (- 255 / 4) < Rabs x < exp (255 / 4)) ->
    exists u, f t t = Val u /\ g u = Val (Z.abs t).
Proof. exact square_root_of_square. Qed.
Print Assumptions C95_square_root_of_square.
Theorem C95_power_of_two_exact :
  forall n f t x j, log_integer_power n f -> n <> 8%Z -> is_intn n t -> value Logarithmic n t = Some x ->
    (0 <= j <= 62)%Z -> (x = 0 \/ exp (- 255 / 2) < powerRZ (Rabs x) (2 ^ j) < exp (255 / 2)) ->
    exists u, f t (2 ^ j)%Z = Val u /\ is_intn n u /\ value Logarithmic n u = Some (powerRZ x (2 ^ j)).
Proof. exact power_of_two_exact. Qed.
Print Assumptions C95_power_of_two_exact.
Example C95_case : log_multiplication 16 takum16_multiplication /\ log_integer_power 16 takum16_integer_power /\ is_intn 16 (-0x4800) /\
  value Logarithmic 16 (-0x4800) = Some (- exp (1 / 2)) /\
  exp (- 255 / 4) < Rabs (- exp (1 / 2)) < exp (255 / 4) /\ exp (- 255 / 2) < powerRZ (Rabs (- exp (1 / 2))) (2 ^ 1) < exp (255 / 2) /\
  takum16_multiplication (-0x4800) (-0x4800) = Val 0x4c00%Z /\ takum16_square_root 0x4c00 = Val 0x4800%Z /\
  takum16_multiplication (-0x4123) (-0x4123) = Val 0x4246%Z /\ takum16_square_root 0x4246 = Val 0x4123%Z /\
  takum16_integer_power (-0x4123) 16 = Val 0x4d18%Z.
Proof.
  pose proof (exp_pos (1 / 2)). repeat (match goal with |- _ /\ _ => split end); try constructor; try (vm_compute; reflexivity); try discriminate.
  - rewrite (value_real 16) by (unfold is_real_takum, is_intn, nar; change (2 ^ (16 - 1))%Z with 32768%Z; lia). f_equal. change (-0x4800 <? 0)%Z with true. unfold E, l_, sgn, m_.
    change (S_ 16 (-0x4800)) with 1%Z. change (c_ 16 (-0x4800)) with (-1)%Z. change (M_ 16 (-0x4800)) with 0%Z. replace ((1 - 2 * 1) * (IZR (-1) + 0 / IZR (2 ^ p_ 16 (-0x4800))) / 2) with (1 / 2) by (unfold Rdiv; lra). ring.
  - rewrite Rabs_Ropp, Rabs_pos_eq by lra. apply exp_increasing. lra.
  - rewrite Rabs_Ropp, Rabs_pos_eq by lra. apply exp_increasing. lra.
  - rewrite Rabs_Ropp, Rabs_pos_eq by lra. change (powerRZ (exp (1 / 2)) (2 ^ 1)) with (exp (1 / 2) * (exp (1 / 2) * 1)). rewrite Rmult_1_r, <- exp_plus. apply exp_increasing. lra.
  - rewrite Rabs_Ropp, Rabs_pos_eq by lra. change (powerRZ (exp (1 / 2)) (2 ^ 1)) with (exp (1 / 2) * (exp (1 / 2) * 1)). rewrite Rmult_1_r, <- exp_plus. apply exp_increasing. lra.
Qed.

(** C96: the square root of the square need not be the absolute value for
    linear takums of any width and for takum8, although nothing saturates: the
    linear takums lie between 1 and 2, and neither the takum8 nor its square is
    the least or the greatest positive one *)
Theorem C96_square_root_of_square_refuted :
  (forall n mul sqrt abs, linear_multiplication n mul -> linear_square_root n sqrt -> absolute_value Linear n abs ->
    exists a s, is_intn n a /\ (2 ^ (n - 2) < a < 2 ^ (n - 2) + 2 ^ (n - 4))%Z /\
      mul a a = Val s /\ (2 ^ (n - 2) < s < 2 ^ (n - 2) + 2 ^ (n - 3))%Z /\ sqrt s <> abs a) /\
  (exists a s, is_intn 8 a /\ (0 < a < 127)%Z /\ takum8_multiplication x86_64 a a = Val s /\ (0 < s < 127)%Z /\
     takum8_square_root x86_64 s <> takum8_absolute a).
Proof. exact square_root_of_square_differs. Qed.
Print Assumptions C96_square_root_of_square_refuted.

(** C97: computing in a wider format and narrowing changes nothing *)
Theorem C97_wider_multiplication :
  forall A B w r f g a b, widening Logarithmic A B w -> narrowing Logarithmic B A r ->
    log_multiplication A f -> log_multiplication B g -> is_intn A a -> is_intn A b ->
    exists a' b' c, w a = Val a' /\ w b = Val b' /\ g a' b' = Val c /\ r c = f a b.
Proof. exact wider_multiplication. Qed.
Print Assumptions C97_wider_multiplication.
Theorem C97_wider_division :
  forall A B w r f g a b, widening Logarithmic A B w -> narrowing Logarithmic B A r ->
    log_division A f -> log_division B g -> is_intn A a -> is_intn A b ->
    exists a' b' c, w a = Val a' /\ w b = Val b' /\ g a' b' = Val c /\ r c = f a b.
Proof. exact wider_division. Qed.
Print Assumptions C97_wider_division.
Theorem C97_wider_square_root :
  forall A B w r f g a, widening Logarithmic A B w -> narrowing Logarithmic B A r ->
    log_square_root A f -> log_square_root B g -> is_intn A a ->
    exists a' c, w a = Val a' /\ g a' = Val c /\ r c = f a.
Proof. exact wider_square_root. Qed.
Print Assumptions C97_wider_square_root.
Theorem C97_wider_integer_power :
  forall A B w r f g a e, widening Logarithmic A B w -> narrowing Logarithmic B A r ->
    log_integer_power A f -> log_integer_power B g -> is_intn A a -> is_int64 e ->
    exists a' c, w a = Val a' /\ g a' e = Val c /\ r c = f a e.
Proof. exact wider_integer_power. Qed.
Print Assumptions C97_wider_integer_power.
Theorem C97_wider_linear_multiplication :
  forall A B w r f g a b, widening Linear A B w -> narrowing Linear B A r ->
    linear_multiplication A f -> (A = 8 \/ A = 16)%Z -> linear_multiplication B g -> is_intn A a -> is_intn A b ->
    exists a' b' c, w a = Val a' /\ w b = Val b' /\ g a' b' = Val c /\ r c = f a b.
Proof. exact wider_linear_same. Qed.
Print Assumptions C97_wider_linear_multiplication.
Example C97_case : widening Logarithmic 8 16 takum16_from_takum8 /\ narrowing Logarithmic 16 8 takum8_from_takum16 /\
  takum16_from_takum8 0x45 = Val 0x4500%Z /\ takum16_from_takum8 (-0x63) = Val (-0x6300)%Z /\
  takum16_multiplication 0x4500 (-0x6300) = Val (-0x6350)%Z /\ takum8_from_takum16 (-0x6350) = Val (-0x63)%Z /\
  takum8_multiplication x86_64 0x45 (-0x63) = Val (-0x63)%Z.
Proof. repeat (match goal with |- _ /\ _ => split end); try constructor; vm_compute; reflexivity. Qed.

(** C98: products of linear takums computed in a wider format are correctly
    rounded, at 32 bits too, where the direct product is not (C46) *)
Theorem C98_product_in_wider_format :
  forall A B w r g a b, widening Linear A B w -> narrowing Linear B A r ->
    linear_multiplication B g -> is_intn A a -> is_intn A b ->
    exists a' b' c t, w a = Val a' /\ w b = Val b' /\ g a' b' = Val c /\ r c = Val t /\ is_intn A t /\
      match value Linear A a, value Linear A b with
      | Some x, Some y => rounds Linear A (x * y) t
      | _, _ => t = nar A
      end.
Proof. exact wider_linear_multiplication. Qed.
Print Assumptions C98_product_in_wider_format.
Example C98_case : widening Linear 32 64 takum_linear64_from_takum_linear32 /\ narrowing Linear 64 32 takum_linear32_from_takum_linear64 /\
  linear_multiplication 64 (takum_linear_multiplication x86_64 W64) /\
  takum_linear64_from_takum_linear32 0x4363c5ad = Val 0x4363c5ad00000000%Z /\ takum_linear64_from_takum_linear32 0x4047e625 = Val 0x4047e62500000000%Z /\
  takum_linear_multiplication x86_64 W64 0x4363c5ad00000000 0x4047e62500000000 = Val 0x43ca22d080000020%Z /\
  takum_linear32_from_takum_linear64 0x43ca22d080000020 = Val 0x43ca22d1%Z /\
  takum_linear_multiplication x86_64 W32 0x4363c5ad 0x4047e625 = Val 0x43ca22d0%Z.
Proof. repeat (match goal with |- _ /\ _ => split end); try constructor; vm_compute; reflexivity. Qed.
