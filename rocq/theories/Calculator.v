(** Model of the calculator, example/calculator.c, on x86-64, and of getline
    in example/util.c.  The table of operators, the fields of struct number and
    the order of calls are those of the code.  No proofs in this file. *)
From Coq Require Import ZArith List Bool Ascii String.
From Flocq Require Import IEEE754.BinarySingleNaN.
From Verif Require Import CModel FloatModel Libm WidthConv Conversion Arith Wrappers.
Import ListNotations.
Local Open Scope Z_scope.

(** Strings are lists of bytes, without the terminating NUL. *)
Definition bytes := list ascii.
Definition str (s : string) : bytes := list_ascii_of_string s.
Definition byte_eqb (a b : bytes) : bool := if list_eq_dec ascii_dec a b then true else false.

(** * Numbers *)

(** example/calculator.c:13-22 *)
Inductive takum_type :=
| TAKUM8
| TAKUM16
| TAKUM32
| TAKUM64
| TAKUM_LINEAR8
| TAKUM_LINEAR16
| TAKUM_LINEAR32
| TAKUM_LINEAR64.

(** example/calculator.c:24-35 *)
Record number := mk_number {
  type_ : takum_type;
  takum8_value : Z;
  takum16_value : Z;
  takum32_value : Z;
  takum64_value : Z;
  takum_linear8_value : Z;
  takum_linear16_value : Z;
  takum_linear32_value : Z;
  takum_linear64_value : Z;
  integer_value : Z
}.

Definition INT64_MAX : Z := 2 ^ 63 - 1.
Definition INT64_MIN : Z := - 2 ^ 63.

(** the field a switch over takum_type selects, as in a->takum8_value for
    TAKUM_TYPE_TAKUM8 (example/calculator.c, all switches of process_token) *)
Definition takum_value (T : takum_type) (nb : number) : Z :=
  match T with
  | TAKUM8 => takum8_value nb
  | TAKUM16 => takum16_value nb
  | TAKUM32 => takum32_value nb
  | TAKUM64 => takum64_value nb
  | TAKUM_LINEAR8 => takum_linear8_value nb
  | TAKUM_LINEAR16 => takum_linear16_value nb
  | TAKUM_LINEAR32 => takum_linear32_value nb
  | TAKUM_LINEAR64 => takum_linear64_value nb
  end.

(** * strtoll, a function of the C library (C99 7.20.1.4) with base 0 and
    long long of 64 bits: white space, sign, prefix and digits in the "C"
    locale; the value saturates.  The second component says whether the end
    pointer stands at the terminating NUL. *)
Definition is_space (c : ascii) : bool :=
  let n := Z.of_N (N_of_ascii c) in (n =? 32) || ((9 <=? n) && (n <=? 13)).
Definition digit (c : ascii) : option Z :=
  let n := Z.of_N (N_of_ascii c) in
  if (48 <=? n) && (n <=? 57) then Some (n - 48)
  else if (97 <=? n) && (n <=? 122) then Some (n - 87)
  else if (65 <=? n) && (n <=? 90) then Some (n - 55)
  else None.
Definition is_digit (base : Z) (c : ascii) : bool :=
  match digit c with Some d => d <? base | None => false end.
Fixpoint skip_space (s : bytes) : bytes :=
  match s with
  | c :: s' => if is_space c then skip_space s' else s
  | [] => []
  end.
(** value of the leading digits and the rest *)
Fixpoint read_digits (base acc : Z) (s : bytes) : Z * bytes :=
  match s with
  | c :: s' =>
      match digit c with
      | Some d => if d <? base then read_digits base (acc * base + d) s' else (acc, s)
      | None => (acc, s)
      end
  | [] => (acc, s)
  end.
Definition clamp64 (z : Z) : Z := Z.max INT64_MIN (Z.min INT64_MAX z).
Definition strtoll (s : bytes) : Z * bool :=
  let s1 := skip_space s in
  let '(neg, s2) :=
    match s1 with
    | c :: s' => if ascii_dec c "-" then (true, s')
                 else if ascii_dec c "+" then (false, s') else (false, s1)
    | [] => (false, s1)
    end in
  let finish base digits :=
    match digits with
    | c :: _ =>
        if is_digit base c then
          let '(v, rest) := read_digits base 0 digits in
          (clamp64 (if neg then - v else v), match rest with [] => true | _ => false end)
        else (0, match s with [] => true | _ => false end)
    | [] => (0, match s with [] => true | _ => false end)
    end in
  match s2 with
  | c0 :: c1 :: c2 :: s' =>
      if ascii_dec c0 "0" then
        if (if ascii_dec c1 "x" then true else if ascii_dec c1 "X" then true else false) && is_digit 16 c2
        then finish 16 (c2 :: s') else finish 8 s2
      else finish 10 s2
  | c0 :: _ => if ascii_dec c0 "0" then finish 8 s2 else finish 10 s2
  | [] => finish 10 s2
  end.

Section Calculator.
Variable lm : libm.
(** strtold, a function of the C library, and whether its end pointer stands
    at the terminating NUL *)
Variable strtold : bytes -> flt f80 * bool.
(** the constant BUFSIZ of stdio.h *)
Variable bufsiz : nat.

(** example/calculator.c:272-300; the fields are filled in this order *)
Definition number_from_takum8 (t : Z) : outcome number :=
  let integer := if t =? 0 then 0 else if t =? ONE 8 then 1 else if t =? - ONE 8 then -1 else INT64_MAX in
  let! v_takum16 := takum16_from_takum8 t in
  let! v_takum32 := takum32_from_takum8 t in
  let! v_takum64 := takum64_from_takum8 t in
  let! v_takum_linear8 := takum_linear8_from_takum8 x86_64 lm t in
  let! v_takum_linear16 := takum_linear16_from_takum8 x86_64 lm t in
  let! v_takum_linear32 := takum_linear32_from_takum8 x86_64 lm t in
  let! v_takum_linear64 := takum_linear64_from_takum8 x86_64 lm t in
  Val (mk_number TAKUM8 t v_takum16 v_takum32 v_takum64 v_takum_linear8 v_takum_linear16 v_takum_linear32 v_takum_linear64 integer).

(** example/calculator.c:302-330; the fields are filled in this order *)
Definition number_from_takum16 (t : Z) : outcome number :=
  let integer := if t =? 0 then 0 else if t =? ONE 16 then 1 else if t =? - ONE 16 then -1 else INT64_MAX in
  let! v_takum8 := takum8_from_takum16 t in
  let! v_takum32 := takum32_from_takum16 t in
  let! v_takum64 := takum64_from_takum16 t in
  let! v_takum_linear8 := takum_linear8_from_takum16 x86_64 lm t in
  let! v_takum_linear16 := takum_linear16_from_takum16 x86_64 lm t in
  let! v_takum_linear32 := takum_linear32_from_takum16 x86_64 lm t in
  let! v_takum_linear64 := takum_linear64_from_takum16 x86_64 lm t in
  Val (mk_number TAKUM16 v_takum8 t v_takum32 v_takum64 v_takum_linear8 v_takum_linear16 v_takum_linear32 v_takum_linear64 integer).

(** example/calculator.c:332-360; the fields are filled in this order *)
Definition number_from_takum32 (t : Z) : outcome number :=
  let integer := if t =? 0 then 0 else if t =? ONE 32 then 1 else if t =? - ONE 32 then -1 else INT64_MAX in
  let! v_takum8 := takum8_from_takum32 t in
  let! v_takum16 := takum16_from_takum32 t in
  let! v_takum64 := takum64_from_takum32 t in
  let! v_takum_linear8 := takum_linear8_from_takum32 x86_64 lm t in
  let! v_takum_linear16 := takum_linear16_from_takum32 x86_64 lm t in
  let! v_takum_linear32 := takum_linear32_from_takum32 x86_64 lm t in
  let! v_takum_linear64 := takum_linear64_from_takum32 x86_64 lm t in
  Val (mk_number TAKUM32 v_takum8 v_takum16 t v_takum64 v_takum_linear8 v_takum_linear16 v_takum_linear32 v_takum_linear64 integer).

(** example/calculator.c:362-390; the fields are filled in this order *)
Definition number_from_takum64 (t : Z) : outcome number :=
  let integer := if t =? 0 then 0 else if t =? ONE 64 then 1 else if t =? - ONE 64 then -1 else INT64_MAX in
  let! v_takum8 := takum8_from_takum64 t in
  let! v_takum16 := takum16_from_takum64 t in
  let! v_takum32 := takum32_from_takum64 t in
  let! v_takum_linear8 := takum_linear8_from_takum64 x86_64 lm t in
  let! v_takum_linear16 := takum_linear16_from_takum64 x86_64 lm t in
  let! v_takum_linear32 := takum_linear32_from_takum64 x86_64 lm t in
  let! v_takum_linear64 := takum_linear64_from_takum64 x86_64 lm t in
  Val (mk_number TAKUM64 v_takum8 v_takum16 v_takum32 t v_takum_linear8 v_takum_linear16 v_takum_linear32 v_takum_linear64 integer).

(** example/calculator.c:392-422; the fields are filled in this order *)
Definition number_from_takum_linear8 (t : Z) : outcome number :=
  let! float := takum_linear8_to_float64 x86_64 t in
  let! i := f2int 64 float in
  let integer := if feq float (fint f64 i) then i else INT64_MAX in
  let! v_takum8 := takum8_from_takum_linear8 x86_64 lm t in
  let! v_takum16 := takum16_from_takum_linear8 x86_64 lm t in
  let! v_takum32 := takum32_from_takum_linear8 x86_64 lm t in
  let! v_takum64 := takum64_from_takum_linear8 x86_64 lm t in
  let! v_takum_linear16 := takum_linear16_from_takum_linear8 t in
  let! v_takum_linear32 := takum_linear32_from_takum_linear8 t in
  let! v_takum_linear64 := takum_linear64_from_takum_linear8 t in
  Val (mk_number TAKUM_LINEAR8 v_takum8 v_takum16 v_takum32 v_takum64 t v_takum_linear16 v_takum_linear32 v_takum_linear64 integer).

(** example/calculator.c:424-454; the fields are filled in this order *)
Definition number_from_takum_linear16 (t : Z) : outcome number :=
  let! float := takum_linear16_to_float64 x86_64 t in
  let! i := f2int 64 float in
  let integer := if feq float (fint f64 i) then i else INT64_MAX in
  let! v_takum8 := takum8_from_takum_linear16 x86_64 lm t in
  let! v_takum16 := takum16_from_takum_linear16 x86_64 lm t in
  let! v_takum32 := takum32_from_takum_linear16 x86_64 lm t in
  let! v_takum64 := takum64_from_takum_linear16 x86_64 lm t in
  let! v_takum_linear8 := takum_linear8_from_takum_linear16 t in
  let! v_takum_linear32 := takum_linear32_from_takum_linear16 t in
  let! v_takum_linear64 := takum_linear64_from_takum_linear16 t in
  Val (mk_number TAKUM_LINEAR16 v_takum8 v_takum16 v_takum32 v_takum64 v_takum_linear8 t v_takum_linear32 v_takum_linear64 integer).

(** example/calculator.c:456-486; the fields are filled in this order *)
Definition number_from_takum_linear32 (t : Z) : outcome number :=
  let! float := takum_linear32_to_float64 x86_64 t in
  let! i := f2int 64 float in
  let integer := if feq float (fint f64 i) then i else INT64_MAX in
  let! v_takum8 := takum8_from_takum_linear32 x86_64 lm t in
  let! v_takum16 := takum16_from_takum_linear32 x86_64 lm t in
  let! v_takum32 := takum32_from_takum_linear32 x86_64 lm t in
  let! v_takum64 := takum64_from_takum_linear32 x86_64 lm t in
  let! v_takum_linear8 := takum_linear8_from_takum_linear32 t in
  let! v_takum_linear16 := takum_linear16_from_takum_linear32 t in
  let! v_takum_linear64 := takum_linear64_from_takum_linear32 t in
  Val (mk_number TAKUM_LINEAR32 v_takum8 v_takum16 v_takum32 v_takum64 v_takum_linear8 v_takum_linear16 t v_takum_linear64 integer).

(** example/calculator.c:488-518; the fields are filled in this order *)
Definition number_from_takum_linear64 (t : Z) : outcome number :=
  let! float := takum_linear64_to_extended_float x86_64 t in
  let! i := f2int 64 float in
  let integer := if feq float (fint f80 i) then i else INT64_MAX in
  let! v_takum8 := takum8_from_takum_linear64 x86_64 lm t in
  let! v_takum16 := takum16_from_takum_linear64 x86_64 lm t in
  let! v_takum32 := takum32_from_takum_linear64 x86_64 lm t in
  let! v_takum64 := takum64_from_takum_linear64 x86_64 lm t in
  let! v_takum_linear8 := takum_linear8_from_takum_linear64 t in
  let! v_takum_linear16 := takum_linear16_from_takum_linear64 t in
  let! v_takum_linear32 := takum_linear32_from_takum_linear64 t in
  Val (mk_number TAKUM_LINEAR64 v_takum8 v_takum16 v_takum32 v_takum64 v_takum_linear8 v_takum_linear16 v_takum_linear32 t integer).

(** the call number_from_TYPE(..., &result) a switch over takum_type selects *)
Definition number_from (T : takum_type) : Z -> outcome number :=
  match T with
  | TAKUM8 => number_from_takum8
  | TAKUM16 => number_from_takum16
  | TAKUM32 => number_from_takum32
  | TAKUM64 => number_from_takum64
  | TAKUM_LINEAR8 => number_from_takum_linear8
  | TAKUM_LINEAR16 => number_from_takum_linear16
  | TAKUM_LINEAR32 => number_from_takum_linear32
  | TAKUM_LINEAR64 => number_from_takum_linear64
  end.

(** example/calculator.c:88-259: the switch of number_from_string, filling the
    fields in the order of the code *)
Definition number_from_literal (T : takum_type) (x : flt f80) (integer : Z) : outcome number :=
  match T with
  | TAKUM8 =>
      let! t := takum8_from_extended_float x86_64 lm x in
      let! v_takum16 := takum16_from_takum8 t in
      let! v_takum32 := takum32_from_takum8 t in
      let! v_takum64 := takum64_from_takum8 t in
      let! v_takum_linear8 := takum_linear8_from_takum8 x86_64 lm t in
      let! v_takum_linear16 := takum_linear16_from_takum8 x86_64 lm t in
      let! v_takum_linear32 := takum_linear32_from_takum8 x86_64 lm t in
      let! v_takum_linear64 := takum_linear64_from_takum8 x86_64 lm t in
      Val (mk_number TAKUM8 t v_takum16 v_takum32 v_takum64 v_takum_linear8 v_takum_linear16 v_takum_linear32 v_takum_linear64 integer)
  | TAKUM16 =>
      let! t := takum16_from_extended_float x86_64 lm x in
      let! v_takum8 := takum8_from_takum16 t in
      let! v_takum32 := takum32_from_takum16 t in
      let! v_takum64 := takum64_from_takum16 t in
      let! v_takum_linear8 := takum_linear8_from_takum16 x86_64 lm t in
      let! v_takum_linear16 := takum_linear16_from_takum16 x86_64 lm t in
      let! v_takum_linear32 := takum_linear32_from_takum16 x86_64 lm t in
      let! v_takum_linear64 := takum_linear64_from_takum16 x86_64 lm t in
      Val (mk_number TAKUM16 v_takum8 t v_takum32 v_takum64 v_takum_linear8 v_takum_linear16 v_takum_linear32 v_takum_linear64 integer)
  | TAKUM32 =>
      let! t := takum32_from_extended_float x86_64 lm x in
      let! v_takum8 := takum8_from_takum32 t in
      let! v_takum16 := takum16_from_takum32 t in
      let! v_takum64 := takum64_from_takum32 t in
      let! v_takum_linear8 := takum_linear8_from_takum32 x86_64 lm t in
      let! v_takum_linear16 := takum_linear16_from_takum32 x86_64 lm t in
      let! v_takum_linear32 := takum_linear32_from_takum32 x86_64 lm t in
      let! v_takum_linear64 := takum_linear64_from_takum32 x86_64 lm t in
      Val (mk_number TAKUM32 v_takum8 v_takum16 t v_takum64 v_takum_linear8 v_takum_linear16 v_takum_linear32 v_takum_linear64 integer)
  | TAKUM64 =>
      let! t := takum64_from_extended_float x86_64 lm x in
      let! v_takum8 := takum8_from_takum64 t in
      let! v_takum16 := takum16_from_takum64 t in
      let! v_takum32 := takum32_from_takum64 t in
      let! v_takum_linear8 := takum_linear8_from_takum64 x86_64 lm t in
      let! v_takum_linear16 := takum_linear16_from_takum64 x86_64 lm t in
      let! v_takum_linear32 := takum_linear32_from_takum64 x86_64 lm t in
      let! v_takum_linear64 := takum_linear64_from_takum64 x86_64 lm t in
      Val (mk_number TAKUM64 v_takum8 v_takum16 v_takum32 t v_takum_linear8 v_takum_linear16 v_takum_linear32 v_takum_linear64 integer)
  | TAKUM_LINEAR8 =>
      let! t := takum_linear8_from_extended_float x86_64 x in
      let! v_takum8 := takum8_from_takum_linear8 x86_64 lm t in
      let! v_takum16 := takum16_from_takum_linear8 x86_64 lm t in
      let! v_takum32 := takum32_from_takum_linear8 x86_64 lm t in
      let! v_takum64 := takum64_from_takum_linear8 x86_64 lm t in
      let! v_takum_linear16 := takum_linear16_from_takum_linear8 t in
      let! v_takum_linear32 := takum_linear32_from_takum_linear8 t in
      let! v_takum_linear64 := takum_linear64_from_takum_linear8 t in
      Val (mk_number TAKUM_LINEAR8 v_takum8 v_takum16 v_takum32 v_takum64 t v_takum_linear16 v_takum_linear32 v_takum_linear64 integer)
  | TAKUM_LINEAR16 =>
      let! t := takum_linear16_from_extended_float x86_64 x in
      let! v_takum8 := takum8_from_takum_linear16 x86_64 lm t in
      let! v_takum16 := takum16_from_takum_linear16 x86_64 lm t in
      let! v_takum32 := takum32_from_takum_linear16 x86_64 lm t in
      let! v_takum64 := takum64_from_takum_linear16 x86_64 lm t in
      let! v_takum_linear8 := takum_linear8_from_takum_linear16 t in
      let! v_takum_linear32 := takum_linear32_from_takum_linear16 t in
      let! v_takum_linear64 := takum_linear64_from_takum_linear16 t in
      Val (mk_number TAKUM_LINEAR16 v_takum8 v_takum16 v_takum32 v_takum64 v_takum_linear8 t v_takum_linear32 v_takum_linear64 integer)
  | TAKUM_LINEAR32 =>
      let! t := takum_linear32_from_extended_float x86_64 x in
      let! v_takum8 := takum8_from_takum_linear32 x86_64 lm t in
      let! v_takum16 := takum16_from_takum_linear32 x86_64 lm t in
      let! v_takum32 := takum32_from_takum_linear32 x86_64 lm t in
      let! v_takum64 := takum64_from_takum_linear32 x86_64 lm t in
      let! v_takum_linear8 := takum_linear8_from_takum_linear32 t in
      let! v_takum_linear16 := takum_linear16_from_takum_linear32 t in
      let! v_takum_linear64 := takum_linear64_from_takum_linear32 t in
      Val (mk_number TAKUM_LINEAR32 v_takum8 v_takum16 v_takum32 v_takum64 v_takum_linear8 v_takum_linear16 t v_takum_linear64 integer)
  | TAKUM_LINEAR64 =>
      let! t := takum_linear64_from_extended_float x86_64 x in
      let! v_takum8 := takum8_from_takum_linear64 x86_64 lm t in
      let! v_takum16 := takum16_from_takum_linear64 x86_64 lm t in
      let! v_takum32 := takum32_from_takum_linear64 x86_64 lm t in
      let! v_takum64 := takum64_from_takum_linear64 x86_64 lm t in
      let! v_takum_linear8 := takum_linear8_from_takum_linear64 t in
      let! v_takum_linear16 := takum_linear16_from_takum_linear64 t in
      let! v_takum_linear32 := takum_linear32_from_takum_linear64 t in
      Val (mk_number TAKUM_LINEAR64 v_takum8 v_takum16 v_takum32 v_takum64 v_takum_linear8 v_takum_linear16 v_takum_linear32 t integer)
  end.

(** example/calculator.c:37-270; [None] is the return value 1, with the message
    "invalid token" *)
Definition number_from_string (token : bytes) (T : takum_type) : outcome (option number) :=
  let '(raw_integer_value, integer_end) := strtoll token in
  let '(raw_float_value, float_end) := strtold token in
  if integer_end then
    if (INT64_MAX <=? raw_integer_value) || (raw_integer_value <? INT64_MIN) then
      let! nb := number_from_literal T (fnan f80) INT64_MAX in Val (Some nb)
    else
      let! nb := number_from_literal T (fint f80 raw_integer_value) raw_integer_value in Val (Some nb)
  else if float_end then
    if feq raw_float_value (fint f80 (-1)) || feq raw_float_value (fint f80 0)
       || feq raw_float_value (fint f80 1) then
      let! i := f2int 64 raw_float_value in
      let! nb := number_from_literal T raw_float_value i in Val (Some nb)
    else
      let! nb := number_from_literal T raw_float_value INT64_MAX in Val (Some nb)
  else Val None.

(** What a line of output shows of a number: an integer, NaR or a float
    (printed with %Lg). *)
Inductive printed := PInt (z : Z) | PNaR | PFloat (x : flt f80).

(** example/calculator.c:520-571 *)
Definition number_print (nb : number) : outcome printed :=
  if negb (integer_value nb =? INT64_MAX) then Val (PInt (integer_value nb))
  else
    let! float_value :=
      match type_ nb with
      | TAKUM8 => takum8_to_extended_float x86_64 lm (takum8_value nb)
      | TAKUM16 => takum16_to_extended_float x86_64 lm (takum16_value nb)
      | TAKUM32 => takum32_to_extended_float x86_64 lm (takum32_value nb)
      | TAKUM64 => takum64_to_extended_float x86_64 lm (takum64_value nb)
      | TAKUM_LINEAR8 => takum_linear8_to_extended_float x86_64 (takum_linear8_value nb)
      | TAKUM_LINEAR16 => takum_linear16_to_extended_float x86_64 (takum_linear16_value nb)
      | TAKUM_LINEAR32 => takum_linear32_to_extended_float x86_64 (takum_linear32_value nb)
      | TAKUM_LINEAR64 => takum_linear64_to_extended_float x86_64 (takum_linear64_value nb)
      end in
    if fisnan float_value then Val PNaR else Val (PFloat float_value).

(** * Memory and output *)

(** Messages written to standard output and standard error. *)
Inductive event :=
| Welcome | Prompt | Help | InvalidToken (t : bytes) | StackUnderflow
| MemoryExhausted | NotOneNumber | Result (register : nat) (p : printed).

(** example/calculator.c:572-576; [data] is [None] for the null pointer, else
    the allocated cells, of which some are not initialised *)
Record stack := mk_stack {
  data : option (list (option number));
  size : nat;
  capacity : nat
}.

(** The state of the program.  [allocations] tells which of the calls of
    malloc and realloc to come succeed; after its end they all do. *)
Record world := mk_world {
  stack_ : stack;
  takum_type_ : takum_type;
  results : list number;
  result_offset : nat;
  output : list event;
  allocations : list bool
}.
Definition set_stack (s : stack) (w : world) : world :=
  mk_world s (takum_type_ w) (results w) (result_offset w) (output w) (allocations w).
Definition set_type (T : takum_type) (w : world) : world :=
  mk_world (stack_ w) T (results w) (result_offset w) (output w) (allocations w).
Definition print (e : event) (w : world) : world :=
  mk_world (stack_ w) (takum_type_ w) (results w) (result_offset w) (output w ++ [e]) (allocations w).
Definition store (i : nat) (nb : number) (w : world) : world :=
  mk_world (stack_ w) (takum_type_ w) (firstn i (results w) ++ nb :: skipn (S i) (results w))
    (result_offset w) (output w) (allocations w).
Definition set_offset (i : nat) (w : world) : world :=
  mk_world (stack_ w) (takum_type_ w) (results w) i (output w) (allocations w).
Definition set_allocations (m : list bool) (w : world) : world :=
  mk_world (stack_ w) (takum_type_ w) (results w) (result_offset w) (output w) m.
Definition allocate (m : list bool) : bool * list bool :=
  match m with b :: m' => (b, m') | [] => (true, []) end.

(** writing the cell number i of a block *)
Definition write {A} (block : list (option A)) (i : nat) (a : A) : outcome (list (option A)) :=
  if Nat.ltb i (List.length block) then Val (firstn i block ++ Some a :: skipn (S i) block) else UB.

(** example/calculator.c:578-584 *)
Definition stack_init : stack := mk_stack None 0 0.

(** the memcpy at example/calculator.c:611 *)
Definition stack_store (nb : number) (s : stack) : outcome stack :=
  match data s with
  | None => UB
  | Some block =>
      let! block := write block (size s) nb in
      Val (mk_stack (Some block) (S (size s)) (capacity s))
  end.

(** example/calculator.c:595-614; [true] is the return value 1.  realloc keeps
    the old cells; size_t is not bounded here. *)
Definition stack_push (nb : number) (w : world) : outcome (bool * world) :=
  let s := stack_ w in
  if Nat.eqb (size s) (capacity s) then
    let '(ok, m) := allocate (allocations w) in
    let w := set_allocations m w in
    if ok then
      let old := match data s with Some block => block | None => [] end in
      let! s := stack_store nb (mk_stack (Some (old ++ [None])) (size s) (S (capacity s))) in
      Val (false, set_stack s w)
    else
      Val (true, print MemoryExhausted (set_stack (mk_stack None (size s) (S (capacity s))) w))
  else
    let! s := stack_store nb s in
    Val (false, set_stack s w).

(** example/calculator.c:616-626.  The pointer returned is read before the next
    change of the stack, so the number itself is returned; reading a cell that
    does not exist or is not initialised is undefined. *)
Definition stack_pop (w : world) : outcome (option number * world) :=
  let s := stack_ w in
  match size s with
  | O => Val (None, print StackUnderflow w)
  | S k =>
      match data s with
      | None => UB
      | Some block =>
          match nth_error block k with
          | Some (Some nb) => Val (Some nb, set_stack (mk_stack (data s) k (capacity s)) w)
          | _ => UB
          end
      end
  end.

(** * Operators *)

(** example/calculator.c:628-636 and the union at 642-690 *)
Inductive operator_type :=
| HELP | POWER | PRECISION
| SWITCH_TAKUM_TYPE (T : takum_type)
| TAKUM_INT64_TAKUM (f : takum_type -> Z -> Z -> outcome Z)
| TAKUM_TAKUM (f : takum_type -> Z -> outcome Z)
| TAKUM_TAKUM_TAKUM (f : takum_type -> Z -> Z -> outcome Z).

(** the eight function pointers of an entry *)
Definition functions {A} (f8 f16 f32 f64 l8 l16 l32 l64 : A) (T : takum_type) : A :=
  match T with
  | TAKUM8 => f8 | TAKUM16 => f16 | TAKUM32 => f32 | TAKUM64 => f64
  | TAKUM_LINEAR8 => l8 | TAKUM_LINEAR16 => l16 | TAKUM_LINEAR32 => l32 | TAKUM_LINEAR64 => l64
  end.

(** example/calculator.c:638-1544, with the functions the entries point to *)
Definition operators : list (bytes * operator_type) := [
  (str "?", HELP);
  (str "+", TAKUM_TAKUM_TAKUM (functions
      (takum_addition x86_64 lm W8)
      (takum_addition x86_64 lm W16)
      (takum_addition x86_64 lm W32)
      (takum_addition x86_64 lm W64)
      (takum_linear_addition x86_64 W8)
      (takum_linear_addition x86_64 W16)
      (takum_linear_addition x86_64 W32)
      (takum_linear_addition x86_64 W64)));
  (str "-", TAKUM_TAKUM_TAKUM (functions
      (takum_subtraction x86_64 lm W8)
      (takum_subtraction x86_64 lm W16)
      (takum_subtraction x86_64 lm W32)
      (takum_subtraction x86_64 lm W64)
      (takum_linear_subtraction x86_64 W8)
      (takum_linear_subtraction x86_64 W16)
      (takum_linear_subtraction x86_64 W32)
      (takum_linear_subtraction x86_64 W64)));
  (str "*", TAKUM_TAKUM_TAKUM (functions
      (takum8_multiplication x86_64)
      (takum16_multiplication)
      (takum32_multiplication x86_64)
      (takum64_multiplication x86_64)
      (takum_linear_multiplication x86_64 W8)
      (takum_linear_multiplication x86_64 W16)
      (takum_linear_multiplication x86_64 W32)
      (takum_linear_multiplication x86_64 W64)));
  (str "/", TAKUM_TAKUM_TAKUM (functions
      (takum8_division x86_64)
      (takum16_division)
      (takum32_division x86_64)
      (takum64_division x86_64)
      (takum_linear_division x86_64 W8)
      (takum_linear_division x86_64 W16)
      (takum_linear_division x86_64 W32)
      (takum_linear_division x86_64 W64)));
  (str "^", POWER);
  (str "abs", TAKUM_TAKUM (functions
      (takum8_absolute)
      (takum16_absolute)
      (takum32_absolute)
      (takum64_absolute)
      (takum_linear8_absolute)
      (takum_linear16_absolute)
      (takum_linear32_absolute)
      (takum_linear64_absolute)));
  (str "arccos", TAKUM_TAKUM (functions
      (takum_unary x86_64 lm n_arccos W8)
      (takum_unary x86_64 lm n_arccos W16)
      (takum_unary x86_64 lm n_arccos W32)
      (takum_unary x86_64 lm n_arccos W64)
      (takum_linear_unary x86_64 lm n_arccos W8)
      (takum_linear_unary x86_64 lm n_arccos W16)
      (takum_linear_unary x86_64 lm n_arccos W32)
      (takum_linear_unary x86_64 lm n_arccos W64)));
  (str "arccos_over_pi", TAKUM_TAKUM (functions
      (takum_unary x86_64 lm n_arccos_over_pi W8)
      (takum_unary x86_64 lm n_arccos_over_pi W16)
      (takum_unary x86_64 lm n_arccos_over_pi W32)
      (takum_unary x86_64 lm n_arccos_over_pi W64)
      (takum_linear_unary x86_64 lm n_arccos_over_pi W8)
      (takum_linear_unary x86_64 lm n_arccos_over_pi W16)
      (takum_linear_unary x86_64 lm n_arccos_over_pi W32)
      (takum_linear_unary x86_64 lm n_arccos_over_pi W64)));
  (str "arccot", TAKUM_TAKUM (functions
      (takum_unary x86_64 lm n_arccot W8)
      (takum_unary x86_64 lm n_arccot W16)
      (takum_unary x86_64 lm n_arccot W32)
      (takum_unary x86_64 lm n_arccot W64)
      (takum_linear_unary x86_64 lm n_arccot W8)
      (takum_linear_unary x86_64 lm n_arccot W16)
      (takum_linear_unary x86_64 lm n_arccot W32)
      (takum_linear_unary x86_64 lm n_arccot W64)));
  (str "arccot_over_pi", TAKUM_TAKUM (functions
      (takum_unary x86_64 lm n_arccot_over_pi W8)
      (takum_unary x86_64 lm n_arccot_over_pi W16)
      (takum_unary x86_64 lm n_arccot_over_pi W32)
      (takum_unary x86_64 lm n_arccot_over_pi W64)
      (takum_linear_unary x86_64 lm n_arccot_over_pi W8)
      (takum_linear_unary x86_64 lm n_arccot_over_pi W16)
      (takum_linear_unary x86_64 lm n_arccot_over_pi W32)
      (takum_linear_unary x86_64 lm n_arccot_over_pi W64)));
  (str "arccsc", TAKUM_TAKUM (functions
      (takum_unary x86_64 lm n_arccsc W8)
      (takum_unary x86_64 lm n_arccsc W16)
      (takum_unary x86_64 lm n_arccsc W32)
      (takum_unary x86_64 lm n_arccsc W64)
      (takum_linear_unary x86_64 lm n_arccsc W8)
      (takum_linear_unary x86_64 lm n_arccsc W16)
      (takum_linear_unary x86_64 lm n_arccsc W32)
      (takum_linear_unary x86_64 lm n_arccsc W64)));
  (str "arccsc_over_pi", TAKUM_TAKUM (functions
      (takum_unary x86_64 lm n_arccsc_over_pi W8)
      (takum_unary x86_64 lm n_arccsc_over_pi W16)
      (takum_unary x86_64 lm n_arccsc_over_pi W32)
      (takum_unary x86_64 lm n_arccsc_over_pi W64)
      (takum_linear_unary x86_64 lm n_arccsc_over_pi W8)
      (takum_linear_unary x86_64 lm n_arccsc_over_pi W16)
      (takum_linear_unary x86_64 lm n_arccsc_over_pi W32)
      (takum_linear_unary x86_64 lm n_arccsc_over_pi W64)));
  (str "arcosh", TAKUM_TAKUM (functions
      (takum_unary x86_64 lm n_arcosh W8)
      (takum_unary x86_64 lm n_arcosh W16)
      (takum_unary x86_64 lm n_arcosh W32)
      (takum_unary x86_64 lm n_arcosh W64)
      (takum_linear_unary x86_64 lm n_arcosh W8)
      (takum_linear_unary x86_64 lm n_arcosh W16)
      (takum_linear_unary x86_64 lm n_arcosh W32)
      (takum_linear_unary x86_64 lm n_arcosh W64)));
  (str "arcoth", TAKUM_TAKUM (functions
      (takum_unary x86_64 lm n_arcoth W8)
      (takum_unary x86_64 lm n_arcoth W16)
      (takum_unary x86_64 lm n_arcoth W32)
      (takum_unary x86_64 lm n_arcoth W64)
      (takum_linear_unary x86_64 lm n_arcoth W8)
      (takum_linear_unary x86_64 lm n_arcoth W16)
      (takum_linear_unary x86_64 lm n_arcoth W32)
      (takum_linear_unary x86_64 lm n_arcoth W64)));
  (str "arcsch", TAKUM_TAKUM (functions
      (takum_unary x86_64 lm n_arcsch W8)
      (takum_unary x86_64 lm n_arcsch W16)
      (takum_unary x86_64 lm n_arcsch W32)
      (takum_unary x86_64 lm n_arcsch W64)
      (takum_linear_unary x86_64 lm n_arcsch W8)
      (takum_linear_unary x86_64 lm n_arcsch W16)
      (takum_linear_unary x86_64 lm n_arcsch W32)
      (takum_linear_unary x86_64 lm n_arcsch W64)));
  (str "arcsec", TAKUM_TAKUM (functions
      (takum_unary x86_64 lm n_arcsec W8)
      (takum_unary x86_64 lm n_arcsec W16)
      (takum_unary x86_64 lm n_arcsec W32)
      (takum_unary x86_64 lm n_arcsec W64)
      (takum_linear_unary x86_64 lm n_arcsec W8)
      (takum_linear_unary x86_64 lm n_arcsec W16)
      (takum_linear_unary x86_64 lm n_arcsec W32)
      (takum_linear_unary x86_64 lm n_arcsec W64)));
  (str "arcsec_over_pi", TAKUM_TAKUM (functions
      (takum_unary x86_64 lm n_arcsec_over_pi W8)
      (takum_unary x86_64 lm n_arcsec_over_pi W16)
      (takum_unary x86_64 lm n_arcsec_over_pi W32)
      (takum_unary x86_64 lm n_arcsec_over_pi W64)
      (takum_linear_unary x86_64 lm n_arcsec_over_pi W8)
      (takum_linear_unary x86_64 lm n_arcsec_over_pi W16)
      (takum_linear_unary x86_64 lm n_arcsec_over_pi W32)
      (takum_linear_unary x86_64 lm n_arcsec_over_pi W64)));
  (str "arcsin", TAKUM_TAKUM (functions
      (takum_unary x86_64 lm n_arcsin W8)
      (takum_unary x86_64 lm n_arcsin W16)
      (takum_unary x86_64 lm n_arcsin W32)
      (takum_unary x86_64 lm n_arcsin W64)
      (takum_linear_unary x86_64 lm n_arcsin W8)
      (takum_linear_unary x86_64 lm n_arcsin W16)
      (takum_linear_unary x86_64 lm n_arcsin W32)
      (takum_linear_unary x86_64 lm n_arcsin W64)));
  (str "arcsin_over_pi", TAKUM_TAKUM (functions
      (takum_unary x86_64 lm n_arcsin_over_pi W8)
      (takum_unary x86_64 lm n_arcsin_over_pi W16)
      (takum_unary x86_64 lm n_arcsin_over_pi W32)
      (takum_unary x86_64 lm n_arcsin_over_pi W64)
      (takum_linear_unary x86_64 lm n_arcsin_over_pi W8)
      (takum_linear_unary x86_64 lm n_arcsin_over_pi W16)
      (takum_linear_unary x86_64 lm n_arcsin_over_pi W32)
      (takum_linear_unary x86_64 lm n_arcsin_over_pi W64)));
  (str "arctan2", TAKUM_TAKUM_TAKUM (functions
      (takum_arctan2 x86_64 lm W8)
      (takum_arctan2 x86_64 lm W16)
      (takum_arctan2 x86_64 lm W32)
      (takum_arctan2 x86_64 lm W64)
      (takum_linear_arctan2 x86_64 lm W8)
      (takum_linear_arctan2 x86_64 lm W16)
      (takum_linear_arctan2 x86_64 lm W32)
      (takum_linear_arctan2 x86_64 lm W64)));
  (str "arctan2_over_pi", TAKUM_TAKUM_TAKUM (functions
      (takum_arctan2_over_pi x86_64 lm W8)
      (takum_arctan2_over_pi x86_64 lm W16)
      (takum_arctan2_over_pi x86_64 lm W32)
      (takum_arctan2_over_pi x86_64 lm W64)
      (takum_linear_arctan2_over_pi x86_64 lm W8)
      (takum_linear_arctan2_over_pi x86_64 lm W16)
      (takum_linear_arctan2_over_pi x86_64 lm W32)
      (takum_linear_arctan2_over_pi x86_64 lm W64)));
  (str "arctan", TAKUM_TAKUM (functions
      (takum_unary x86_64 lm n_arctan W8)
      (takum_unary x86_64 lm n_arctan W16)
      (takum_unary x86_64 lm n_arctan W32)
      (takum_unary x86_64 lm n_arctan W64)
      (takum_linear_unary x86_64 lm n_arctan W8)
      (takum_linear_unary x86_64 lm n_arctan W16)
      (takum_linear_unary x86_64 lm n_arctan W32)
      (takum_linear_unary x86_64 lm n_arctan W64)));
  (str "arctan_over_pi", TAKUM_TAKUM (functions
      (takum_unary x86_64 lm n_arctan_over_pi W8)
      (takum_unary x86_64 lm n_arctan_over_pi W16)
      (takum_unary x86_64 lm n_arctan_over_pi W32)
      (takum_unary x86_64 lm n_arctan_over_pi W64)
      (takum_linear_unary x86_64 lm n_arctan_over_pi W8)
      (takum_linear_unary x86_64 lm n_arctan_over_pi W16)
      (takum_linear_unary x86_64 lm n_arctan_over_pi W32)
      (takum_linear_unary x86_64 lm n_arctan_over_pi W64)));
  (str "arsech", TAKUM_TAKUM (functions
      (takum_unary x86_64 lm n_arsech W8)
      (takum_unary x86_64 lm n_arsech W16)
      (takum_unary x86_64 lm n_arsech W32)
      (takum_unary x86_64 lm n_arsech W64)
      (takum_linear_unary x86_64 lm n_arsech W8)
      (takum_linear_unary x86_64 lm n_arsech W16)
      (takum_linear_unary x86_64 lm n_arsech W32)
      (takum_linear_unary x86_64 lm n_arsech W64)));
  (str "arsinh", TAKUM_TAKUM (functions
      (takum_unary x86_64 lm n_arsinh W8)
      (takum_unary x86_64 lm n_arsinh W16)
      (takum_unary x86_64 lm n_arsinh W32)
      (takum_unary x86_64 lm n_arsinh W64)
      (takum_linear_unary x86_64 lm n_arsinh W8)
      (takum_linear_unary x86_64 lm n_arsinh W16)
      (takum_linear_unary x86_64 lm n_arsinh W32)
      (takum_linear_unary x86_64 lm n_arsinh W64)));
  (str "artanh", TAKUM_TAKUM (functions
      (takum_unary x86_64 lm n_artanh W8)
      (takum_unary x86_64 lm n_artanh W16)
      (takum_unary x86_64 lm n_artanh W32)
      (takum_unary x86_64 lm n_artanh W64)
      (takum_linear_unary x86_64 lm n_artanh W8)
      (takum_linear_unary x86_64 lm n_artanh W16)
      (takum_linear_unary x86_64 lm n_artanh W32)
      (takum_linear_unary x86_64 lm n_artanh W64)));
  (str "cos", TAKUM_TAKUM (functions
      (takum_unary x86_64 lm n_cos W8)
      (takum_unary x86_64 lm n_cos W16)
      (takum_unary x86_64 lm n_cos W32)
      (takum_unary x86_64 lm n_cos W64)
      (takum_linear_unary x86_64 lm n_cos W8)
      (takum_linear_unary x86_64 lm n_cos W16)
      (takum_linear_unary x86_64 lm n_cos W32)
      (takum_linear_unary x86_64 lm n_cos W64)));
  (str "cos_pi_times", TAKUM_TAKUM (functions
      (takum_unary x86_64 lm n_cos_pi_times W8)
      (takum_unary x86_64 lm n_cos_pi_times W16)
      (takum_unary x86_64 lm n_cos_pi_times W32)
      (takum_unary x86_64 lm n_cos_pi_times W64)
      (takum_linear_unary x86_64 lm n_cos_pi_times W8)
      (takum_linear_unary x86_64 lm n_cos_pi_times W16)
      (takum_linear_unary x86_64 lm n_cos_pi_times W32)
      (takum_linear_unary x86_64 lm n_cos_pi_times W64)));
  (str "cosh", TAKUM_TAKUM (functions
      (takum_unary x86_64 lm n_cosh W8)
      (takum_unary x86_64 lm n_cosh W16)
      (takum_unary x86_64 lm n_cosh W32)
      (takum_unary x86_64 lm n_cosh W64)
      (takum_linear_unary x86_64 lm n_cosh W8)
      (takum_linear_unary x86_64 lm n_cosh W16)
      (takum_linear_unary x86_64 lm n_cosh W32)
      (takum_linear_unary x86_64 lm n_cosh W64)));
  (str "cot", TAKUM_TAKUM (functions
      (takum_unary x86_64 lm n_cot W8)
      (takum_unary x86_64 lm n_cot W16)
      (takum_unary x86_64 lm n_cot W32)
      (takum_unary x86_64 lm n_cot W64)
      (takum_linear_unary x86_64 lm n_cot W8)
      (takum_linear_unary x86_64 lm n_cot W16)
      (takum_linear_unary x86_64 lm n_cot W32)
      (takum_linear_unary x86_64 lm n_cot W64)));
  (str "cot_pi_times", TAKUM_TAKUM (functions
      (takum_unary x86_64 lm n_cot_pi_times W8)
      (takum_unary x86_64 lm n_cot_pi_times W16)
      (takum_unary x86_64 lm n_cot_pi_times W32)
      (takum_unary x86_64 lm n_cot_pi_times W64)
      (takum_linear_unary x86_64 lm n_cot_pi_times W8)
      (takum_linear_unary x86_64 lm n_cot_pi_times W16)
      (takum_linear_unary x86_64 lm n_cot_pi_times W32)
      (takum_linear_unary x86_64 lm n_cot_pi_times W64)));
  (str "coth", TAKUM_TAKUM (functions
      (takum_unary x86_64 lm n_coth W8)
      (takum_unary x86_64 lm n_coth W16)
      (takum_unary x86_64 lm n_coth W32)
      (takum_unary x86_64 lm n_coth W64)
      (takum_linear_unary x86_64 lm n_coth W8)
      (takum_linear_unary x86_64 lm n_coth W16)
      (takum_linear_unary x86_64 lm n_coth W32)
      (takum_linear_unary x86_64 lm n_coth W64)));
  (str "csc", TAKUM_TAKUM (functions
      (takum_unary x86_64 lm n_csc W8)
      (takum_unary x86_64 lm n_csc W16)
      (takum_unary x86_64 lm n_csc W32)
      (takum_unary x86_64 lm n_csc W64)
      (takum_linear_unary x86_64 lm n_csc W8)
      (takum_linear_unary x86_64 lm n_csc W16)
      (takum_linear_unary x86_64 lm n_csc W32)
      (takum_linear_unary x86_64 lm n_csc W64)));
  (str "csc_pi_times", TAKUM_TAKUM (functions
      (takum_unary x86_64 lm n_csc_pi_times W8)
      (takum_unary x86_64 lm n_csc_pi_times W16)
      (takum_unary x86_64 lm n_csc_pi_times W32)
      (takum_unary x86_64 lm n_csc_pi_times W64)
      (takum_linear_unary x86_64 lm n_csc_pi_times W8)
      (takum_linear_unary x86_64 lm n_csc_pi_times W16)
      (takum_linear_unary x86_64 lm n_csc_pi_times W32)
      (takum_linear_unary x86_64 lm n_csc_pi_times W64)));
  (str "csch", TAKUM_TAKUM (functions
      (takum_unary x86_64 lm n_csch W8)
      (takum_unary x86_64 lm n_csch W16)
      (takum_unary x86_64 lm n_csch W32)
      (takum_unary x86_64 lm n_csch W64)
      (takum_linear_unary x86_64 lm n_csch W8)
      (takum_linear_unary x86_64 lm n_csch W16)
      (takum_linear_unary x86_64 lm n_csch W32)
      (takum_linear_unary x86_64 lm n_csch W64)));
  (str "exp", TAKUM_TAKUM (functions
      (takum_unary x86_64 lm n_exp W8)
      (takum_unary x86_64 lm n_exp W16)
      (takum_unary x86_64 lm n_exp W32)
      (takum_unary x86_64 lm n_exp W64)
      (takum_linear_unary x86_64 lm n_exp W8)
      (takum_linear_unary x86_64 lm n_exp W16)
      (takum_linear_unary x86_64 lm n_exp W32)
      (takum_linear_unary x86_64 lm n_exp W64)));
  (str "exp_minus_1", TAKUM_TAKUM (functions
      (takum_unary x86_64 lm n_exp_minus_1 W8)
      (takum_unary x86_64 lm n_exp_minus_1 W16)
      (takum_unary x86_64 lm n_exp_minus_1 W32)
      (takum_unary x86_64 lm n_exp_minus_1 W64)
      (takum_linear_unary x86_64 lm n_exp_minus_1 W8)
      (takum_linear_unary x86_64 lm n_exp_minus_1 W16)
      (takum_linear_unary x86_64 lm n_exp_minus_1 W32)
      (takum_linear_unary x86_64 lm n_exp_minus_1 W64)));
  (str "hypotenuse", TAKUM_TAKUM_TAKUM (functions
      (takum_hypotenuse x86_64 lm W8)
      (takum_hypotenuse x86_64 lm W16)
      (takum_hypotenuse x86_64 lm W32)
      (takum_hypotenuse x86_64 lm W64)
      (takum_linear_hypotenuse x86_64 lm W8)
      (takum_linear_hypotenuse x86_64 lm W16)
      (takum_linear_hypotenuse x86_64 lm W32)
      (takum_linear_hypotenuse x86_64 lm W64)));
  (str "root", TAKUM_INT64_TAKUM (functions
      (takum8_root x86_64)
      (takum16_root)
      (takum32_root x86_64)
      (takum64_root x86_64)
      (takum_linear_root x86_64 lm W8)
      (takum_linear_root x86_64 lm W16)
      (takum_linear_root x86_64 lm W32)
      (takum_linear_root x86_64 lm W64)));
  (str "inv", TAKUM_TAKUM (functions
      (takum8_inversion)
      (takum16_inversion)
      (takum32_inversion)
      (takum64_inversion)
      (takum_linear_inversion x86_64 W8)
      (takum_linear_inversion x86_64 W16)
      (takum_linear_inversion x86_64 W32)
      (takum_linear_inversion x86_64 W64)));
  (str "lb", TAKUM_TAKUM (functions
      (takum_unary x86_64 lm n_lb W8)
      (takum_unary x86_64 lm n_lb W16)
      (takum_unary x86_64 lm n_lb W32)
      (takum_unary x86_64 lm n_lb W64)
      (takum_linear_unary x86_64 lm n_lb W8)
      (takum_linear_unary x86_64 lm n_lb W16)
      (takum_linear_unary x86_64 lm n_lb W32)
      (takum_linear_unary x86_64 lm n_lb W64)));
  (str "lb_1_plus", TAKUM_TAKUM (functions
      (takum_unary x86_64 lm n_lb_1_plus W8)
      (takum_unary x86_64 lm n_lb_1_plus W16)
      (takum_unary x86_64 lm n_lb_1_plus W32)
      (takum_unary x86_64 lm n_lb_1_plus W64)
      (takum_linear_unary x86_64 lm n_lb_1_plus W8)
      (takum_linear_unary x86_64 lm n_lb_1_plus W16)
      (takum_linear_unary x86_64 lm n_lb_1_plus W32)
      (takum_linear_unary x86_64 lm n_lb_1_plus W64)));
  (str "lg", TAKUM_TAKUM (functions
      (takum_unary x86_64 lm n_lg W8)
      (takum_unary x86_64 lm n_lg W16)
      (takum_unary x86_64 lm n_lg W32)
      (takum_unary x86_64 lm n_lg W64)
      (takum_linear_unary x86_64 lm n_lg W8)
      (takum_linear_unary x86_64 lm n_lg W16)
      (takum_linear_unary x86_64 lm n_lg W32)
      (takum_linear_unary x86_64 lm n_lg W64)));
  (str "lg_1_plus", TAKUM_TAKUM (functions
      (takum_unary x86_64 lm n_lg_1_plus W8)
      (takum_unary x86_64 lm n_lg_1_plus W16)
      (takum_unary x86_64 lm n_lg_1_plus W32)
      (takum_unary x86_64 lm n_lg_1_plus W64)
      (takum_linear_unary x86_64 lm n_lg_1_plus W8)
      (takum_linear_unary x86_64 lm n_lg_1_plus W16)
      (takum_linear_unary x86_64 lm n_lg_1_plus W32)
      (takum_linear_unary x86_64 lm n_lg_1_plus W64)));
  (str "ln", TAKUM_TAKUM (functions
      (takum_unary x86_64 lm n_ln W8)
      (takum_unary x86_64 lm n_ln W16)
      (takum_unary x86_64 lm n_ln W32)
      (takum_unary x86_64 lm n_ln W64)
      (takum_linear_unary x86_64 lm n_ln W8)
      (takum_linear_unary x86_64 lm n_ln W16)
      (takum_linear_unary x86_64 lm n_ln W32)
      (takum_linear_unary x86_64 lm n_ln W64)));
  (str "ln_1_plus", TAKUM_TAKUM (functions
      (takum_unary x86_64 lm n_ln_1_plus W8)
      (takum_unary x86_64 lm n_ln_1_plus W16)
      (takum_unary x86_64 lm n_ln_1_plus W32)
      (takum_unary x86_64 lm n_ln_1_plus W64)
      (takum_linear_unary x86_64 lm n_ln_1_plus W8)
      (takum_linear_unary x86_64 lm n_ln_1_plus W16)
      (takum_linear_unary x86_64 lm n_ln_1_plus W32)
      (takum_linear_unary x86_64 lm n_ln_1_plus W64)));
  (str "precision", PRECISION);
  (str "sec", TAKUM_TAKUM (functions
      (takum_unary x86_64 lm n_sec W8)
      (takum_unary x86_64 lm n_sec W16)
      (takum_unary x86_64 lm n_sec W32)
      (takum_unary x86_64 lm n_sec W64)
      (takum_linear_unary x86_64 lm n_sec W8)
      (takum_linear_unary x86_64 lm n_sec W16)
      (takum_linear_unary x86_64 lm n_sec W32)
      (takum_linear_unary x86_64 lm n_sec W64)));
  (str "sec_pi_times", TAKUM_TAKUM (functions
      (takum_unary x86_64 lm n_sec_pi_times W8)
      (takum_unary x86_64 lm n_sec_pi_times W16)
      (takum_unary x86_64 lm n_sec_pi_times W32)
      (takum_unary x86_64 lm n_sec_pi_times W64)
      (takum_linear_unary x86_64 lm n_sec_pi_times W8)
      (takum_linear_unary x86_64 lm n_sec_pi_times W16)
      (takum_linear_unary x86_64 lm n_sec_pi_times W32)
      (takum_linear_unary x86_64 lm n_sec_pi_times W64)));
  (str "sech", TAKUM_TAKUM (functions
      (takum_unary x86_64 lm n_sech W8)
      (takum_unary x86_64 lm n_sech W16)
      (takum_unary x86_64 lm n_sech W32)
      (takum_unary x86_64 lm n_sech W64)
      (takum_linear_unary x86_64 lm n_sech W8)
      (takum_linear_unary x86_64 lm n_sech W16)
      (takum_linear_unary x86_64 lm n_sech W32)
      (takum_linear_unary x86_64 lm n_sech W64)));
  (str "sign", TAKUM_TAKUM (functions
      (takum8_sign)
      (takum16_sign)
      (takum32_sign)
      (takum64_sign)
      (takum_linear8_sign)
      (takum_linear16_sign)
      (takum_linear32_sign)
      (takum_linear64_sign)));
  (str "sin", TAKUM_TAKUM (functions
      (takum_unary x86_64 lm n_sin W8)
      (takum_unary x86_64 lm n_sin W16)
      (takum_unary x86_64 lm n_sin W32)
      (takum_unary x86_64 lm n_sin W64)
      (takum_linear_unary x86_64 lm n_sin W8)
      (takum_linear_unary x86_64 lm n_sin W16)
      (takum_linear_unary x86_64 lm n_sin W32)
      (takum_linear_unary x86_64 lm n_sin W64)));
  (str "sin_pi_times", TAKUM_TAKUM (functions
      (takum_unary x86_64 lm n_sin_pi_times W8)
      (takum_unary x86_64 lm n_sin_pi_times W16)
      (takum_unary x86_64 lm n_sin_pi_times W32)
      (takum_unary x86_64 lm n_sin_pi_times W64)
      (takum_linear_unary x86_64 lm n_sin_pi_times W8)
      (takum_linear_unary x86_64 lm n_sin_pi_times W16)
      (takum_linear_unary x86_64 lm n_sin_pi_times W32)
      (takum_linear_unary x86_64 lm n_sin_pi_times W64)));
  (str "sinh", TAKUM_TAKUM (functions
      (takum_unary x86_64 lm n_sinh W8)
      (takum_unary x86_64 lm n_sinh W16)
      (takum_unary x86_64 lm n_sinh W32)
      (takum_unary x86_64 lm n_sinh W64)
      (takum_linear_unary x86_64 lm n_sinh W8)
      (takum_linear_unary x86_64 lm n_sinh W16)
      (takum_linear_unary x86_64 lm n_sinh W32)
      (takum_linear_unary x86_64 lm n_sinh W64)));
  (str "sqrt", TAKUM_TAKUM (functions
      (takum8_square_root x86_64)
      (takum16_square_root)
      (takum32_square_root x86_64)
      (takum64_square_root x86_64)
      (takum_linear_square_root x86_64 W8)
      (takum_linear_square_root x86_64 W16)
      (takum_linear_square_root x86_64 W32)
      (takum_linear_square_root x86_64 W64)));
  (str "takum8", SWITCH_TAKUM_TYPE TAKUM8);
  (str "takum16", SWITCH_TAKUM_TYPE TAKUM16);
  (str "takum32", SWITCH_TAKUM_TYPE TAKUM32);
  (str "takum64", SWITCH_TAKUM_TYPE TAKUM64);
  (str "takum_linear8", SWITCH_TAKUM_TYPE TAKUM_LINEAR8);
  (str "takum_linear16", SWITCH_TAKUM_TYPE TAKUM_LINEAR16);
  (str "takum_linear32", SWITCH_TAKUM_TYPE TAKUM_LINEAR32);
  (str "takum_linear64", SWITCH_TAKUM_TYPE TAKUM_LINEAR64);
  (str "tan", TAKUM_TAKUM (functions
      (takum_unary x86_64 lm n_tan W8)
      (takum_unary x86_64 lm n_tan W16)
      (takum_unary x86_64 lm n_tan W32)
      (takum_unary x86_64 lm n_tan W64)
      (takum_linear_unary x86_64 lm n_tan W8)
      (takum_linear_unary x86_64 lm n_tan W16)
      (takum_linear_unary x86_64 lm n_tan W32)
      (takum_linear_unary x86_64 lm n_tan W64)));
  (str "tan_pi_times", TAKUM_TAKUM (functions
      (takum_unary x86_64 lm n_tan_pi_times W8)
      (takum_unary x86_64 lm n_tan_pi_times W16)
      (takum_unary x86_64 lm n_tan_pi_times W32)
      (takum_unary x86_64 lm n_tan_pi_times W64)
      (takum_linear_unary x86_64 lm n_tan_pi_times W8)
      (takum_linear_unary x86_64 lm n_tan_pi_times W16)
      (takum_linear_unary x86_64 lm n_tan_pi_times W32)
      (takum_linear_unary x86_64 lm n_tan_pi_times W64)));
  (str "tanh", TAKUM_TAKUM (functions
      (takum_unary x86_64 lm n_tanh W8)
      (takum_unary x86_64 lm n_tanh W16)
      (takum_unary x86_64 lm n_tanh W32)
      (takum_unary x86_64 lm n_tanh W64)
      (takum_linear_unary x86_64 lm n_tanh W8)
      (takum_linear_unary x86_64 lm n_tanh W16)
      (takum_linear_unary x86_64 lm n_tanh W32)
      (takum_linear_unary x86_64 lm n_tanh W64)))].

(** the functions called in the switches at example/calculator.c:1634-1744 *)
Definition power : takum_type -> Z -> Z -> outcome Z := functions
    (takum_power x86_64 lm W8)
    (takum_power x86_64 lm W16)
    (takum_power x86_64 lm W32)
    (takum_power x86_64 lm W64)
    (takum_linear_power x86_64 lm W8)
    (takum_linear_power x86_64 lm W16)
    (takum_linear_power x86_64 lm W32)
    (takum_linear_power x86_64 lm W64).
Definition integer_power : takum_type -> Z -> Z -> outcome Z := functions
    (takum8_integer_power x86_64)
    (takum16_integer_power)
    (takum32_integer_power x86_64)
    (takum64_integer_power x86_64 lm)
    (takum_linear_integer_power x86_64 lm W8)
    (takum_linear_integer_power x86_64 lm W16)
    (takum_linear_integer_power x86_64 lm W32)
    (takum_linear_integer_power x86_64 lm W64).
(** example/calculator.c:1759-1832 *)
Definition precision : takum_type -> Z -> outcome Z := functions
    takum8_precision takum16_precision takum32_precision takum64_precision takum_linear8_precision takum_linear16_precision takum_linear32_precision takum_linear64_precision.
Definition from_extended_float : takum_type -> flt f80 -> outcome Z := functions
    (takum8_from_extended_float x86_64 lm)
    (takum16_from_extended_float x86_64 lm)
    (takum32_from_extended_float x86_64 lm)
    (takum64_from_extended_float x86_64 lm)
    (takum_linear8_from_extended_float x86_64)
    (takum_linear16_from_extended_float x86_64)
    (takum_linear32_from_extended_float x86_64)
    (takum_linear64_from_extended_float x86_64).

(** the loop at example/calculator.c:1566-2130: the first entry whose identifier
    is equal to the token *)
Fixpoint find_operator (token : bytes) (l : list (bytes * operator_type)) : option operator_type :=
  match l with
  | [] => None
  | (identifier, op) :: l' => if byte_eqb token identifier then Some op else find_operator token l'
  end.

(** pushing the number left in result *)
Definition push_result (nb : outcome number) (w : world) : outcome (bool * world) :=
  let! nb := nb in stack_push nb w.

(** the switch at example/calculator.c:1577-2126; [true] is the return value 1.
    Each inner switch over *takum_type is the choice made by [takum_value],
    [functions] and [number_from]. *)
Definition apply_operator (op : operator_type) (w : world) : outcome (bool * world) :=
  let T := takum_type_ w in
  match op with
  | HELP => Val (true, print Help w)
  | POWER =>
      let! p := stack_pop w in
      let '(b, w) := p in
      match b with
      | None => Val (true, w)
      | Some b =>
          let! p := stack_pop w in
          let '(a, w) := p in
          match a with
          | None => Val (true, w)
          | Some a =>
              if integer_value b =? INT64_MAX
              then push_result (let! r := power T (takum_value T a) (takum_value T b) in number_from T r) w
              else push_result (let! r := integer_power T (takum_value T a) (integer_value b) in number_from T r) w
          end
      end
  | PRECISION =>
      let! p := stack_pop w in
      let '(a, w) := p in
      match a with
      | None => Val (true, w)
      | Some a =>
          push_result (let! i := precision T (takum_value T a) in
                       let! r := from_extended_float T (fint f80 i) in
                       number_from T r) w
      end
  | SWITCH_TAKUM_TYPE T' => Val (true, set_type T' w)
  | TAKUM_INT64_TAKUM f =>
      let! p := stack_pop w in
      let '(b, w) := p in
      match b with
      | None => Val (true, w)
      | Some b =>
          let! p := stack_pop w in
          let '(a, w) := p in
          match a with
          | None => Val (true, w)
          | Some a =>
              if integer_value b =? INT64_MAX then Val (true, w)
              else push_result (let! r := f T (takum_value T a) (integer_value b) in number_from T r) w
          end
      end
  | TAKUM_TAKUM f =>
      let! p := stack_pop w in
      let '(a, w) := p in
      match a with
      | None => Val (true, w)
      | Some a => push_result (let! r := f T (takum_value T a) in number_from T r) w
      end
  | TAKUM_TAKUM_TAKUM f =>
      let! p := stack_pop w in
      let '(b, w) := p in
      match b with
      | None => Val (true, w)
      | Some b =>
          let! p := stack_pop w in
          let '(a, w) := p in
          match a with
          | None => Val (true, w)
          | Some a => push_result (let! r := f T (takum_value T a) (takum_value T b) in number_from T r) w
          end
      end
  end.

(** the test at example/calculator.c:1557 *)
Definition register_of (token : bytes) : option nat :=
  match token with
  | [c] => let n := N_of_ascii c in
           if ((97 <=? n) && (n <=? 122))%N then Some (N.to_nat (n - 97)) else None
  | _ => None
  end.

(** example/calculator.c:1546-2139; [true] is a return value other than 0 *)
Definition process_token (token : bytes) (w : world) : outcome (bool * world) :=
  match register_of token with
  | Some i =>
      match nth_error (results w) i with
      | Some nb => stack_push nb w
      | None => UB
      end
  | None =>
      match find_operator token operators with
      | Some op => apply_operator op w
      | None =>
          let! r := number_from_string token (takum_type_ w) in
          match r with
          | None => Val (true, print (InvalidToken token) w)
          | Some nb => stack_push nb w
          end
      end
  end.

(** example/calculator.c:2175-2211: the end of the line *)
Definition end_of_line (w : world) : outcome world :=
  if negb (Nat.eqb (size (stack_ w)) 1) then Val (print NotOneNumber w)
  else
    let! p := stack_pop w in
    let '(nb, w) := p in
    match nb with
    | None => UB
    | Some nb =>
        let! shown := number_print nb in
        let w := print (Result (result_offset w) shown) w in
        if Nat.ltb (result_offset w) (List.length (results w)) then
          let w := store (result_offset w) nb w in
          Val (set_offset (Nat.modulo (S (result_offset w)) (List.length (results w))) w)
        else UB
    end.

(** the loop at example/calculator.c:2165-2212, over the tokens still to come *)
Fixpoint process_tokens (tokens : list bytes) (w : world) : outcome world :=
  match tokens with
  | [] => Val w
  | token :: tokens' =>
      let! p := process_token token w in
      let '(stop, w) := p in
      if (stop : bool) then Val w
      else match tokens' with
           | [] => end_of_line w
           | _ => process_tokens tokens' w
           end
  end.

(** strtok, a function of the C library (C99 7.21.5.8), called until it returns
    NULL with the delimiters space and newline: the maximal runs of other
    bytes.  [run] is the current one. *)
Definition is_delimiter (c : ascii) : bool :=
  if ascii_dec c " " then true else if ascii_dec c "010" then true else false.
Fixpoint strtok_all (run : bytes) (s : bytes) : list bytes :=
  match s with
  | [] => match run with [] => [] | _ => [run] end
  | c :: s' =>
      if is_delimiter c
      then match run with [] => strtok_all [] s' | _ => run :: strtok_all [] s' end
      else strtok_all (run ++ [c]) s'
  end.

(** example/calculator.c:2161-2215: one line *)
Definition process_line (line : bytes) (w : world) : outcome world :=
  let w := set_stack (mk_stack (data (stack_ w)) 0 (capacity (stack_ w))) w in
  let! w := process_tokens (strtok_all [] line) w in
  Val (print Prompt w).

(** * Input *)

(** the line buffer: [None] is the null pointer, else the cells allocated; the
    variable line_capacity is its size *)
Record buffer := mk_buffer { block : option (list (option ascii)); line_capacity : nat }.

(** example/util.c:35-47: make room for the byte number pos and a NUL; [None]
    is the return value -1 *)
Definition grow (b : buffer) (pos : nat) (m : list bool) : option buffer * list bool :=
  if Nat.leb (line_capacity b) (pos + 1) then
    let new_size := (line_capacity b + Nat.div (line_capacity b) 4)%nat in
    let new_size := if Nat.ltb new_size bufsiz then bufsiz else new_size in
    let '(ok, m) := allocate m in
    let old := match block b with Some c => c | None => [] end in
    if ok then (Some (mk_buffer (Some (firstn new_size old ++ repeat None (new_size - List.length old))) new_size), m)
    else (None, m)
  else (Some b, m).

Definition put (b : buffer) (pos : nat) (c : ascii) : outcome buffer :=
  match block b with
  | None => UB
  | Some cells => let! cells := write cells pos c in Val (mk_buffer (Some cells) (line_capacity b))
  end.

(** what getline leaves: its return value, [None] for -1, the buffer, the input
    not read yet and the allocations to come *)
Record got := mk_got {
  returned : option nat;
  line_buffer : buffer;
  unread : bytes;
  left_allocations : list bool
}.

(** the loop at example/util.c:34-57; c is the byte read last *)
Fixpoint getline_loop (c : ascii) (input : bytes) (b : buffer) (pos : nat) (m : list bool) : outcome got :=
  match grow b pos m with
  | (None, m) => Val (mk_got None b input m)
  | (Some b, m) =>
      let! b := put b pos c in
      let pos := S pos in
      let finish := fun input : bytes => let! b := put b pos "000" in Val (mk_got (Some pos) b input m) in
      if ascii_dec c "010" then finish input
      else match input with
           | [] => finish []
           | c' :: input' => getline_loop c' input' b pos m
           end
  end.

(** example/util.c:11-60, for pointers that are not null; [input] is what can
    still be read from the file, getc does not fail *)
Definition getline (b : buffer) (input : bytes) (m : list bool) : outcome got :=
  match input with
  | [] => Val (mk_got None b [] m)
  | c :: input' =>
      match block b with
      | Some _ => getline_loop c input' b 0 m
      | None =>
          let '(ok, m) := allocate m in
          if ok then getline_loop c input' (mk_buffer (Some (repeat None bufsiz)) bufsiz) 0 m
          else Val (mk_got None b input' m)
      end
  end.

(** the string at the start of a buffer, up to its NUL *)
Fixpoint c_string (cells : list (option ascii)) : outcome bytes :=
  match cells with
  | Some c :: cells' => if ascii_dec c "000" then Val [] else let! s := c_string cells' in Val (c :: s)
  | _ => UB
  end.

(** example/calculator.c:2159-2216; [None] when the number of lines exceeds
    [fuel] *)
Fixpoint main_loop (fuel : nat) (b : buffer) (input : bytes) (w : world) : outcome (option world) :=
  match fuel with
  | O => Val None
  | S fuel' =>
      let! g := getline b input (allocations w) in
      let w := set_allocations (left_allocations g) w in
      match returned g with
      | None => Val (Some w)
      | Some _ =>
          match block (line_buffer g) with
          | None => UB
          | Some cells =>
              let! line := c_string cells in
              let! w := process_line line w in
              main_loop fuel' (line_buffer g) (unread g) w
          end
      end
  end.

(** a number all bytes of which are 0: struct number results[26] = { 0 } *)
Definition zero_number : number := mk_number TAKUM8 0 0 0 0 0 0 0 0 0.
(** the state before the first line, example/calculator.c:2144-2157 *)
Definition initial (m : list bool) : world :=
  mk_world stack_init TAKUM64 (repeat zero_number 26) 0 [Welcome; Prompt] m.

(** example/calculator.c:2141-2223: main.  A line has at least one byte, so the
    fuel suffices. *)
Definition calculator (input : bytes) (m : list bool) : outcome (option world) :=
  main_loop (S (List.length input)) (mk_buffer None 0) input (initial m).

End Calculator.
