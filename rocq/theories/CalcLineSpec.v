(** What a line of the calculator of example/calculator.c does when it is not
    an expression: which message it prints, and when it leaves the defined
    behaviour of C.  Builds on CalcSpec.v.  No proofs in this file. *)
From Coq Require Import ZArith List Bool Ascii String Reals.
From Verif Require Import CModel FloatModel Libm Spec Conversion Wrappers WrapApi Calculator CalcSpec.
Import ListNotations.
Local Open Scope Z_scope.

Section LineSpec.
Variable lm : libm.
Variable strtold : bytes -> flt f80 * bool.
(** the current type, and the numbers in the registers *)
Variable T : takum_type.
Variable regs : list tvalue.

(** A word ends its line.  The expressions before it have the values vs; it
    prints the given messages and leaves the given type in force. *)
Inductive ends (vs : list tvalue) : bytes -> list event -> takum_type -> Prop :=
(** the word for help *)
| ends_help : ends vs (str "?") [Help] T
(** the name of a type *)
| ends_type : forall name T', In (name, T') types -> ends vs name [] T'
(** an operator that lacks operands *)
| ends_operand : forall name o, In (name, o) names1 -> vs = [] -> ends vs name [StackUnderflow] T
| ends_operands : forall name o, In (name, o) names2 -> (List.length vs < 2)%nat -> ends vs name [StackUnderflow] T
(** a root whose degree is not known to be an integer: no message *)
| ends_degree : forall name vs' a b, In (name, Root) names2 -> vs = vs' ++ [a; b] -> vint b = None -> ends vs name [] T
(** a word that is no name and that neither strtoll nor strtold can read *)
| ends_invalid : forall token, ~ In token reserved -> ~ is_letter token ->
    snd (strtoll token) = false -> snd (strtold token) = false -> ends vs token [InvalidToken token] T.

(** A word has undefined behaviour after expressions with the values vs: a
    function of the API has, or the program cannot take its result. *)
Inductive breaks (vs : list tvalue) : bytes -> Prop :=
| breaks_function : forall name o vs' a f x, In (name, o) names1 -> vs = vs' ++ [a] ->
    op1_function lm T o f -> casts lm a T x -> f x = UB -> breaks vs name
| breaks_result1 : forall name o vs' a r, In (name, o) names1 -> vs = vs' ++ [a] ->
    op1_result lm T o a r -> ~ acceptable (kind_of T) (bits_of T) r -> breaks vs name
| breaks_result2 : forall name o vs' a b r, In (name, o) names2 -> vs = vs' ++ [a; b] ->
    op2_result lm T o a b r -> ~ acceptable (kind_of T) (bits_of T) r -> breaks vs name.

(** the words are some expressions, one after the other, with these values *)
Definition expressions (ws : list bytes) (vs : list tvalue) : Prop :=
  exists es, ws = List.concat (map postfix es) /\ Forall2 (evaluates lm strtold T regs) es vs.

(** What a line does. *)
Inductive line_outcome :=
| Shows (v : tvalue)                          (** it has one value *)
| Says (messages : list event) (T' : takum_type)  (** it prints messages and leaves a type in force *)
| Undefined.
Inductive line_does : list bytes -> line_outcome -> Prop :=
| does_nothing : line_does [] (Says [] T)
| does_show : forall ws v, expressions ws [v] -> line_does ws (Shows v)
| does_count : forall ws vs, ws <> [] -> expressions ws vs -> List.length vs <> 1%nat -> line_does ws (Says [NotOneNumber] T)
| does_end : forall before vs word after messages T', expressions before vs -> ends vs word messages T' ->
    line_does (before ++ word :: after) (Says messages T')
| does_break : forall before vs word after, expressions before vs -> breaks vs word ->
    line_does (before ++ word :: after) Undefined.
End LineSpec.

(** The program in state w goes on like this. *)
Definition behaves (lm : libm) (w : world) (what : line_outcome) (o : outcome world) : Prop :=
  match what with
  | Shows v => exists w' p, o = Val w' /\ shows lm v p /\
      output w' = output w ++ [Result (result_offset w) p; Prompt] /\
      registers w' = replaced (result_offset w) v (registers w) /\
      result_offset w' = ((result_offset w + 1) mod 26)%nat /\ takum_type_ w' = takum_type_ w
  | Says messages T' => exists w', o = Val w' /\
      output w' = output w ++ messages ++ [Prompt] /\ registers w' = registers w /\
      result_offset w' = result_offset w /\ takum_type_ w' = T'
  | Undefined => o = UB
  end.

(** * Integers as in C *)

(** the value of digits in a base *)
Definition base_value (base : Z) (ds : list nat) : Z := fold_left (fun a d => base * a + Z.of_nat d) ds 0.
(** a hexadecimal digit, in either case *)
Definition hex_digit (c : ascii) (d : nat) : Prop :=
  ((d < 10)%nat /\ c = ascii_of_nat (48 + d)) \/
  ((10 <= d < 16)%nat /\ (c = ascii_of_nat (97 + (d - 10)) \/ c = ascii_of_nat (65 + (d - 10)))).
(** an integer constant of C: decimal, octal with a leading 0, hexadecimal with
    a leading 0x *)
Inductive c_constant : bytes -> Z -> Prop :=
| c_decimal : forall ds, digits ds -> c_constant (map decimal_digit ds) (base_value 10 ds)
| c_octal : forall ds, Forall (fun d => (d < 8)%nat) ds -> c_constant ("0"%char :: map decimal_digit ds) (base_value 8 ds)
| c_hexadecimal : forall x cs ds, x = "x"%char \/ x = "X"%char -> cs <> [] -> Forall2 hex_digit cs ds ->
    c_constant ("0"%char :: x :: cs) (base_value 16 ds).
(** with an optional sign *)
Inductive c_integer : bytes -> Z -> Prop :=
| c_unsigned : forall s z, c_constant s z -> c_integer s z
| c_plus : forall s z, c_constant s z -> c_integer ("+"%char :: s) z
| c_minus : forall s z, c_constant s z -> c_integer ("-"%char :: s) (- z).
