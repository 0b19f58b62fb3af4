(** What every line of the calculator of example/calculator.c does.  Theorems
    only; the specification is in CalcSpec.v and CalcLineSpec.v. *)
From Coq Require Import ZArith List Bool Ascii String Reals Lia.
From Verif Require Import CModel FloatModel Libm LibmSpec LibmIdeal Spec Conversion Wrappers WrapApi Calculator CalcSpec CalcLineSpec CalcRun CalcLine CalcNumeral.
Import ListNotations.
Local Open Scope Z_scope.

(** C81: every line, whatever its words are, does one of the things listed:
    it shows its value, prints one of the messages or has undefined
    behaviour *)
Theorem C81_every_line_listed :
  forall lm strtold ls w line ws, c99 lm -> session lm strtold ls w -> words line ws ->
    exists what, line_does lm strtold (takum_type_ w) (registers w) ws what.
Proof. exact (fun lm strtold ls w line ws C S _ => does_total lm strtold C ls w ws S). Qed.
Print Assumptions C81_every_line_listed.
(** and the program behaves accordingly *)
Theorem C81_line_behaves :
  forall lm strtold ls w line ws, c99 lm -> session lm strtold ls w -> words line ws ->
    forall what, line_does lm strtold (takum_type_ w) (registers w) ws what ->
      behaves lm w what (process_line lm strtold line w).
Proof. exact (fun lm strtold ls w line ws C => does_behaves lm strtold C ls w line ws). Qed.
Print Assumptions C81_line_behaves.
(** so this is exactly when a line has undefined behaviour *)
Theorem C81_undefined_exactly :
  forall lm strtold ls w line ws, c99 lm -> session lm strtold ls w -> words line ws ->
    (process_line lm strtold line w = UB <-> line_does lm strtold (takum_type_ w) (registers w) ws Undefined).
Proof. exact (fun lm strtold ls w line ws C => undefined_iff lm strtold C ls w line ws). Qed.
Print Assumptions C81_undefined_exactly.
(** some lines of a new session *)
Example C81_case : forall strtold, snd (strtold (str "foo")) = false ->
  c99 ideal /\ session ideal strtold [] (initial []) /\
  words (str "1 2") [str "1"; str "2"] /\
  line_does ideal strtold (takum_type_ (initial [])) (registers (initial [])) [str "1"; str "2"] (Says [NotOneNumber] TAKUM64) /\
  line_does ideal strtold (takum_type_ (initial [])) (registers (initial [])) [str "1"; str "+"; str "foo"] (Says [StackUnderflow] TAKUM64) /\
  line_does ideal strtold (takum_type_ (initial [])) (registers (initial [])) [str "1"; str "foo"; str "+"] (Says [InvalidToken (str "foo")] TAKUM64).
Proof.
  intros strtold S. split; [exact ideal_c99|]. split; [reflexivity|]. split; [apply words_iff; vm_compute; reflexivity|].
  split; [exact (two_numbers ideal strtold ideal_c99)|]. split; [exact (missing_operand ideal strtold ideal_c99)|exact (unknown_word ideal strtold ideal_c99 S)].
Qed.

(** C82: a root whose degree is not known to be an integer prints nothing at
    all *)
Theorem C82_no_silent_line_refuted :
  ~ (forall lm strtold ls w line ws w', c99 lm -> session lm strtold ls w -> words line ws -> ws <> [] ->
      (forall t, In t ws -> ~ In t (map fst types)) -> process_line lm strtold line w = Val w' ->
      output w' <> output w ++ [Prompt]).
Proof. exact (fun H => silent_refuted ideal (fun _ => (fint f80 0, false)) ideal_c99 (fun ls w line ws w' => H ideal _ ls w line ws w' ideal_c99)). Qed.
Print Assumptions C82_no_silent_line_refuted.

(** C83: integers may be written as in C, in decimal, octal or hexadecimal,
    with a sign; they are read exactly and rounded faithfully *)
Theorem C83_c_integers :
  forall lm strtold, c99 lm -> forall ls w line s z, session lm strtold ls w -> words line [s] -> c_integer s z ->
    - 2 ^ 63 <= z < 2 ^ 63 - 1 ->
    exists w' t, process_line lm strtold line w = Val w' /\
      output w' = output w ++ [Result (result_offset w) (PInt z); Prompt] /\
      registers w' = replaced (result_offset w) (mk_tvalue (takum_type_ w) t (Some z)) (registers w) /\
      rounds_faithfully (kind_of (takum_type_ w)) (bits_of (takum_type_ w)) (IZR z) t.
Proof. exact c_integer_line. Qed.
Print Assumptions C83_c_integers.
Example C83_case : c_integer (str "010") 8 /\ c_integer (str "-0xfF") (-255) /\ c_integer (str "+12") 12.
Proof.
  split; [exact ten_octal|]. split.
  - apply (c_minus _ 255), (c_hexadecimal _ (str "fF") [15; 15]%nat); [left; reflexivity|discriminate|].
    constructor; [right; split; [lia|left; reflexivity]|]. constructor; [right; split; [lia|right; reflexivity]|constructor].
  - apply (c_plus _ 12), (c_decimal [1; 2]%nat). split; [repeat (constructor; [lia|]); constructor|]. right. do 2 eexists. split; [reflexivity|discriminate].
Qed.

(** C84: so leading zeros change the value *)
Theorem C84_leading_zeros_refuted :
  ~ (forall lm strtold ls w line s ds w', c99 lm -> session lm strtold ls w -> words line [s] ->
      s = map decimal_digit ds -> ds <> [] -> Forall (fun d => (d < 10)%nat) ds -> decimal_value ds < 2 ^ 63 - 1 ->
      process_line lm strtold line w = Val w' ->
      output w' = output w ++ [Result (result_offset w) (PInt (decimal_value ds)); Prompt]).
Proof. exact (fun H => leading_zeros ideal (fun _ => (fint f80 0, false)) ideal_c99 (fun ls w line s ds w' => H ideal _ ls w line s ds w' ideal_c99)). Qed.
Print Assumptions C84_leading_zeros_refuted.

(** C85: the program starts with takum64, all registers 0, a welcome and a
    prompt, whatever is entered afterwards; without input nothing else happens *)
Theorem C85_start :
  forall lm strtold bufsiz, (4 <= bufsiz)%nat -> c99 lm ->
    exists w, calculator lm strtold bufsiz [] [] = Val (Some w) /\ takum_type_ w = TAKUM64 /\
      registers w = repeat zero_value 26 /\ result_offset w = 0%nat /\ output w = [Welcome; Prompt].
Proof. exact start. Qed.
Print Assumptions C85_start.
(** every longer input only adds to the output *)
Theorem C85_output_grows :
  forall lm strtold bufsiz, (4 <= bufsiz)%nat -> c99 lm -> forall input input' w w',
    calculator lm strtold bufsiz input [] = Val (Some w) ->
    calculator lm strtold bufsiz (input ++ "010"%char :: input') [] = Val (Some w') ->
    exists more, output w' = output w ++ more.
Proof. exact output_grows. Qed.
Print Assumptions C85_output_grows.
Example C85_case : forall strtold, exists w w', calculator ideal strtold 256 (str "takum8") [] = Val (Some w) /\
  calculator ideal strtold 256 (str "takum8" ++ "010"%char :: str "?") [] = Val (Some w').
Proof.
  intros strtold. destruct (typed ideal strtold 256 ltac:(lia) ideal_c99) as (w & w' & E & E'). exists w, w'. auto.
Qed.
