(** The text of numbers: how printf writes a long double with %Lg, and which
    texts strtold reads as decimal numbers, both after the C99 standard.  They
    are functions of the C library, so that they are specified and not modelled:
    example/calculator.c:525, 565 and 567 call printf, example/calculator.c:52
    calls strtold.  No proofs in this file. *)
From Coq Require Import ZArith List Bool Ascii String Reals.
From Flocq Require Import IEEE754.BinarySingleNaN.
From Verif Require Import CModel FloatModel Libm Spec Calculator CalcSpec.
Import ListNotations.
Local Open Scope Z_scope.

Definition all_digits (ds : list nat) : Prop := Forall (fun d => (d < 10)%nat) ds.

(** * %Lg (C99 7.19.6.1) *)

(** digits without the zeros at the end *)
Fixpoint strip (ds : list nat) : list nat :=
  match ds with
  | [] => []
  | d :: ds' => match strip ds', d with [], O => [] | s, _ => d :: s end
  end.
(** the digits before and after the decimal point; no point if none follow *)
Definition point_text (whole fraction : list nat) : bytes :=
  map decimal_digit whole ++ match fraction with [] => [] | _ => "."%char :: map decimal_digit fraction end.
(** at least two digits of an exponent, no more than needed *)
Definition exponent_digits (es : list nat) (X : Z) : Prop :=
  all_digits es /\ decimal_value es = Z.abs X /\
  (List.length es = 2%nat \/ ((2 < List.length es)%nat /\ hd 0%nat es <> 0%nat)).
(** the text of d.ddddd * 10^X for six digits: as a number without an exponent if
    -4 <= X < 6, else with it; without zeros at the end of the fraction *)
Inductive six_digit_text (ds : list nat) (X : Z) : bytes -> Prop :=
| text_whole : 0 <= X < 6 ->
    six_digit_text ds X (point_text (firstn (Z.to_nat X + 1) ds) (strip (skipn (Z.to_nat X + 1) ds)))
| text_fraction : -4 <= X < 0 ->
    six_digit_text ds X (point_text [0%nat] (strip (repeat 0%nat (Z.to_nat (- X - 1)) ++ ds)))
| text_exponent : forall es, X < -4 \/ 6 <= X -> exponent_digits es X ->
    six_digit_text ds X (point_text (firstn 1 ds) (strip (skipn 1 ds)) ++
      "e"%char :: (if X <? 0 then "-"%char else "+"%char) :: map decimal_digit es).
(** the positive number x is d.ddddd * 10^X, rounded to the nearest number with
    six digits (a tie to either of them) *)
Definition six_digits (x : R) (ds : list nat) (X : Z) : Prop :=
  List.length ds = 6%nat /\ all_digits ds /\ hd 0%nat ds <> 0%nat /\
  exists e m, (powerRZ 10 e <= x < powerRZ 10 (e + 1))%R /\
    (Rabs (x - IZR m * powerRZ 10 (e - 5)) <= powerRZ 10 (e - 5) / 2)%R /\
    ((decimal_value ds = m /\ X = e) \/ (m = 10 ^ 6 /\ decimal_value ds = 10 ^ 5 /\ X = e + 1)).
(** the text for a finite long double *)
Definition percent_Lg (x : flt f80) (text : bytes) : Prop :=
  exists unsigned, text = (if Bsign x then "-"%char :: unsigned else unsigned) /\
    ((B2R x = 0%R /\ unsigned = str "0") \/
     exists ds X, six_digits (Rabs (B2R x)) ds X /\ six_digit_text ds X unsigned).
(** what is printed for a number *)
Definition printed_text (p : printed) (text : bytes) : Prop :=
  match p with
  | PInt z => numeral text z
  | PNaR => text = str "NaR"
  | PFloat x => percent_Lg x text
  end.

(** * strtold (C99 7.20.1.3, decimal numbers) *)
Inductive sign_text : bytes -> bool -> Prop :=
| sign_none : sign_text [] false
| sign_plus : sign_text ["+"%char] false
| sign_minus : sign_text ["-"%char] true.
Inductive fraction_text : bytes -> list nat -> Prop :=
| fraction_none : fraction_text [] []
| fraction_digits : forall ds, all_digits ds -> fraction_text ("."%char :: map decimal_digit ds) ds.
Inductive exponent_text : bytes -> Z -> Prop :=
| exponent_none : exponent_text [] 0
| exponent_some : forall c s b es, c = "e"%char \/ c = "E"%char -> sign_text s b -> all_digits es -> es <> [] ->
    exponent_text (c :: s ++ map decimal_digit es) (if b then - decimal_value es else decimal_value es).
(** the number a text stands for *)
Inductive decimal_text : bytes -> R -> Prop :=
| decimal_number : forall s b whole f fraction e E, sign_text s b -> all_digits whole -> fraction_text f fraction -> exponent_text e E ->
    whole ++ fraction <> [] ->
    decimal_text (s ++ map decimal_digit whole ++ f ++ e)
      ((if b then -1 else 1) * (IZR (decimal_value (whole ++ fraction)) * powerRZ 10 (E - Z.of_nat (List.length fraction)))).
(** strtold reads decimal numbers within its range to 62 bits *)
Definition reads_decimals (strtold : bytes -> flt f80 * bool) : Prop :=
  forall text r, decimal_text text r -> (r = 0 \/ powerRZ 2 (-16000) <= Rabs r <= powerRZ 2 16000)%R ->
    exists x, strtold text = (x, true) /\ is_finite x = true /\ (Rabs (B2R x - r) <= powerRZ 2 (-62) * Rabs r)%R.

(** * Numbers the calculator holds *)

(** the result of an operator, or a literal that was entered *)
Definition number_of_calculator (lm : libm) strtold (T : takum_type) (v : tvalue) : Prop :=
  (exists r, is_result T r v) \/ (exists token, is_literal lm strtold T token v).
