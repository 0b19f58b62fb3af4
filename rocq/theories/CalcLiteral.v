(** Integer literals of the calculator. *)
From Coq Require Import ZArith List Bool Ascii String Reals Lia Lra.
From Flocq Require Import Core.Core IEEE754.BinarySingleNaN.
From Verif Require Import CModel FloatModel Libm Spec WidthConv WidthApi LogApi LinApi Conversion Arith Wrappers WrapApi WidthFacts FloatFacts LibmSpec WrapTotal WrapBin WrapPow Calculator CalcSpec CalcFacts CalcOps CalcStep CalcEval CalcRun CalcSession.
Import ListNotations.
Local Open Scope Z_scope.

Lemma digit_case : forall d, (d < 10)%nat -> digit (decimal_digit d) = Some (Z.of_nat d) /\ is_space (decimal_digit d) = false /\
  decimal_digit d <> "-"%char /\ decimal_digit d <> "+"%char /\ (d <> 0%nat -> decimal_digit d <> "0"%char).
Proof.
  intros d H. do 10 (destruct d as [|d]; [split; [reflexivity|split; [reflexivity|split; [discriminate|split; [discriminate|intros; try contradiction; discriminate]]]]|]). lia.
Qed.
Lemma read_decimal : forall ds acc, Forall (fun d => (d < 10)%nat) ds ->
  read_digits 10 acc (map decimal_digit ds) = (fold_left (fun a d => 10 * a + Z.of_nat d) ds acc, []).
Proof.
  induction ds as [|d ds IH]; intros acc H; [reflexivity|]. inversion H as [|? ? Hd Hds]; subst. cbn [map read_digits fold_left].
  destruct (digit_case d Hd) as (-> & _). destruct (Z.ltb_spec (Z.of_nat d) 10) as [L|L]; [|lia]. rewrite IH by assumption.
  f_equal. f_equal. lia.
Qed.
Lemma value_nonneg : forall ds acc, 0 <= acc -> 0 <= fold_left (fun a d => 10 * a + Z.of_nat d) ds acc.
Proof. induction ds as [|d ds IH]; intros acc H; [assumption|]. cbn [fold_left]. apply IH. lia. Qed.

(** the part of strtoll after the sign *)
Definition after_sign (whole : bytes) (neg : bool) (s2 : bytes) : Z * bool :=
  let finish base digits :=
    match digits with
    | c :: _ =>
        if is_digit base c then
          let '(v, rest) := read_digits base 0 digits in
          (clamp64 (if neg then - v else v), match rest with [] => true | _ => false end)
        else (0, match whole with [] => true | _ => false end)
    | [] => (0, match whole with [] => true | _ => false end)
    end in
  match s2 with
  | c0 :: c1 :: c2 :: s' =>
      if ascii_dec c0 "0" then
        if (if ascii_dec c1 "x" then true else if ascii_dec c1 "X" then true else false) && is_digit 16 c2
        then finish 16 (c2 :: s') else finish 8 s2
      else finish 10 s2
  | c0 :: _ => if ascii_dec c0 "0" then finish 8 s2 else finish 10 s2
  | [] => finish 10 s2
  end.
Lemma after_digits : forall whole neg ds, digits ds ->
  after_sign whole neg (map decimal_digit ds) = (clamp64 (if neg then - decimal_value ds else decimal_value ds), true).
Proof.
  intros whole neg ds [F [->|(d & ds' & -> & N)]]; [destruct neg; reflexivity|].
  inversion F as [|? ? Hd Hds]; subst. destruct (digit_case d Hd) as (E1 & E2 & E3 & E4 & E5). specialize (E5 N).
  pose proof (read_decimal (d :: ds') 0 F) as R. cbn [map] in *.
  assert (is_digit 10 (decimal_digit d) = true) as I by (unfold is_digit; rewrite E1; apply Z.ltb_lt; lia).
  unfold after_sign. destruct (map decimal_digit ds') as [|c1 [|c2 s]]; destruct (ascii_dec (decimal_digit d) "0"); try contradiction; rewrite I, R; reflexivity.
Qed.
Lemma strtoll_numeral : forall s z, numeral s z -> strtoll s = (clamp64 z, true).
Proof.
  intros s z [ds D|ds D].
  - assert (exists d ds', ds = d :: ds' /\ (d < 10)%nat) as (d & ds' & E & Hd).
    { destruct D as [F [->|(d & ds' & -> & N)]]; inversion F; subst; eauto. }
    destruct (digit_case d Hd) as (_ & E2 & E3 & E4 & _).
    change (strtoll (map decimal_digit ds)) with (let s1 := skip_space (map decimal_digit ds) in
      let '(neg, s2) := match s1 with c :: s' => if ascii_dec c "-" then (true, s') else if ascii_dec c "+" then (false, s') else (false, s1) | [] => (false, s1) end in
      after_sign (map decimal_digit ds) neg s2). cbv zeta.
    pose proof (after_digits (map decimal_digit ds) false ds D) as A. rewrite E in *. cbn [map skip_space] in *. rewrite E2.
    destruct (ascii_dec (decimal_digit d) "-"); [contradiction|]. destruct (ascii_dec (decimal_digit d) "+"); [contradiction|]. exact A.
  - change (strtoll ("-"%char :: map decimal_digit ds)) with (after_sign ("-"%char :: map decimal_digit ds) true (map decimal_digit ds)).
    rewrite (after_digits _ true ds D). reflexivity.
Qed.

(** a numeral is neither reserved nor a register *)
Definition not_numeral (s : bytes) : bool :=
  match s with
  | [] => true
  | c :: s' =>
      if ascii_dec c "-" then match s' with [] => true | d :: _ => negb (is_digit 10 d) end else negb (is_digit 10 c)
  end.
Lemma numeral_looks : forall s z, numeral s z -> not_numeral s = false.
Proof.
  assert (forall ds, digits ds -> exists d ds', ds = d :: ds' /\ (d < 10)%nat) as K.
  { intros ds [F [->|(d & ds' & -> & N)]]; inversion F; subst; eauto. }
  intros s z [ds D|ds D]; destruct (K ds D) as (d & ds' & -> & Hd); destruct (digit_case d Hd) as (E1 & E2 & E3 & _); cbn [map not_numeral].
  - destruct (ascii_dec (decimal_digit d) "-"); [contradiction|]. unfold is_digit. rewrite E1. destruct (Z.ltb_spec (Z.of_nat d) 10); [reflexivity|lia].
  - destruct (ascii_dec "-" "-"); [|contradiction]. unfold is_digit. rewrite E1. destruct (Z.ltb_spec (Z.of_nat d) 10); [reflexivity|lia].
Qed.
Lemma numeral_not_reserved : forall s z, numeral s z -> ~ In s reserved /\ ~ is_letter s.
Proof.
  intros s z H. apply numeral_looks in H. split.
  - intros I. assert (forallb not_numeral reserved = true) as F by (vm_compute; reflexivity). rewrite forallb_forall in F. rewrite (F s I) in H. discriminate.
  - intros (i & Hi & ->). do 26 (destruct i as [|i]; [discriminate H|]). lia.
Qed.

Section Literal.
Variable lm : libm.
Variable strtold : bytes -> flt f80 * bool.
Hypothesis lm_ok : c99 lm.

Lemma literal_int : forall T s z, numeral s z -> - 2 ^ 63 <= z < 2 ^ 63 - 1 ->
  exists t, is_literal lm strtold T s (mk_tvalue T t (Some z)) /\ rounds_faithfully (kind_of T) (bits_of T) (IZR z) t.
Proof.
  intros T s z H R. destruct (numeral_not_reserved s z H) as [N1 N2].
  assert (isf (fint f80 z) (IZR z)) as I by (apply isf_int80; lia).
  destruct (from_faithful lm (kind_of T) (bits_of T) f80 (from_extended_float lm T) (fint f80 z) lm_ok (from_float_ext lm T) (proj1 I)) as (t & E & F).
  exists t. split; [|rewrite <- (proj2 I); exact F]. split; [assumption|]. split; [assumption|]. split; [reflexivity|].
  exists (from_extended_float lm T), (fint f80 z). split; [apply from_float_ext|]. split; [|exact E]. cbn [vint].
  apply reads_integer; [|lia]. rewrite (strtoll_numeral s z H). f_equal. unfold clamp64, INT64_MIN, INT64_MAX. lia.
Qed.
(** integers that are too large are NaR, ones that are too small saturate *)
Lemma literal_large : forall T s z, numeral s z -> 2 ^ 63 - 1 <= z -> is_literal lm strtold T s (mk_tvalue T (nar (bits_of T)) None).
Proof.
  intros T s z H R. destruct (numeral_not_reserved s z H) as [N1 N2].
  split; [assumption|]. split; [assumption|]. split; [reflexivity|]. exists (from_extended_float lm T), B754_nan. split; [apply from_float_ext|]. split.
  - cbn [vint]. apply reads_too_large. rewrite (strtoll_numeral s z H). f_equal. unfold clamp64, INT64_MIN, INT64_MAX. lia.
  - cbn [vtakum]. pose proof (from_float_ext lm T) as F. exact (from_nan lm _ _ _ _ F).
Qed.
Lemma literal_small : forall T s z, numeral s z -> z < - 2 ^ 63 ->
  exists t, is_literal lm strtold T s (mk_tvalue T t (Some (- 2 ^ 63))) /\ rounds_faithfully (kind_of T) (bits_of T) (- IZR (2 ^ 63)) t.
Proof.
  intros T s z H R. destruct (numeral_not_reserved s z H) as [N1 N2].
  assert (isf (fint f80 (- 2 ^ 63)) (IZR (- 2 ^ 63))) as I by (apply isf_int80; lia).
  destruct (from_faithful lm (kind_of T) (bits_of T) f80 (from_extended_float lm T) (fint f80 (- 2 ^ 63)) lm_ok (from_float_ext lm T) (proj1 I)) as (t & E & F).
  exists t. split; [|rewrite <- opp_IZR, <- (proj2 I); exact F]. split; [assumption|]. split; [assumption|]. split; [reflexivity|].
  exists (from_extended_float lm T), (fint f80 (- 2 ^ 63)). split; [apply from_float_ext|]. split; [|exact E]. cbn [vint].
  apply reads_integer; [|lia]. rewrite (strtoll_numeral s z H). f_equal. unfold clamp64, INT64_MIN, INT64_MAX. lia.
Qed.
End Literal.
