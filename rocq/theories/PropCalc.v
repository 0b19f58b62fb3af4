(** The calculator of example/calculator.c, with enough memory unless said
    otherwise.  strtold is any function of the text.  Theorems only; the
    specification is in CalcSpec.v. *)
From Coq Require Import ZArith List Bool Ascii String Reals Lia.
From Flocq Require Import IEEE754.BinarySingleNaN.
From Verif Require Import CModel FloatModel Libm LibmSpec LibmIdeal Spec Conversion Wrappers WrapApi Calculator CalcSpec CalcFacts CalcEval CalcRun CalcSession CalcInput CalcLiteral CalcWitness CalcExact.
Import ListNotations.
Local Open Scope Z_scope.

(** C64: a line that is an expression in postfix notation prints its value,
    stores it in the next register and changes no other register *)
Theorem C64_expressions_evaluated :
  forall lm strtold ls w line ws, c99 lm -> session lm strtold ls w -> words line ws ->
    forall e v, ws = postfix e -> evaluates lm strtold (takum_type_ w) (registers w) e v ->
      exists w' p, process_line lm strtold line w = Val w' /\ shows lm v p /\
        output w' = output w ++ [Result (result_offset w) p; Prompt] /\
        registers w' = replaced (result_offset w) v (registers w) /\
        result_offset w' = ((result_offset w + 1) mod 26)%nat /\ takum_type_ w' = takum_type_ w.
Proof. exact expression_line. Qed.
Print Assumptions C64_expressions_evaluated.
(** any other line prints no result and changes no register *)
Theorem C64_only_expressions :
  forall lm strtold ls w line ws, c99 lm -> session lm strtold ls w -> words line ws ->
    forall w', process_line lm strtold line w = Val w' ->
      (exists e v, ws = postfix e /\ evaluates lm strtold (takum_type_ w) (registers w) e v) \/
      (registers w' = registers w /\ result_offset w' = result_offset w /\
       printed_results (output w') = printed_results (output w)).
Proof. exact other_line. Qed.
Print Assumptions C64_only_expressions.
(** the value does not depend on how the line is read *)
Theorem C64_unambiguous :
  forall lm strtold ls w, c99 lm -> session lm strtold ls w ->
    forall e e' v v', postfix e = postfix e' ->
      evaluates lm strtold (takum_type_ w) (registers w) e v ->
      evaluates lm strtold (takum_type_ w) (registers w) e' v' -> v = v'.
Proof. exact unambiguous. Qed.
Print Assumptions C64_unambiguous.
(** the first line of a session, with some spaces *)
Example C64_case : forall strtold, c99 ideal /\ session ideal strtold [] (initial []) /\
  words (str "  1 2  + ") (postfix (Apply2 (str "+") (Literal (str "1")) (Literal (str "2")))) /\
  exists v, evaluates ideal strtold (takum_type_ (initial [])) (registers (initial []))
    (Apply2 (str "+") (Literal (str "1")) (Literal (str "2"))) v.
Proof.
  intros strtold. split; [exact ideal_c99|]. split; [reflexivity|]. split; [apply words_iff; vm_compute; reflexivity|].
  exact (sum_eval ideal strtold ideal_c99).
Qed.

(** C65: results go to the registers in turn, and a register holds what was
    printed last for it, or 0 *)
Theorem C65_registers :
  forall lm strtold, c99 lm -> forall ls w, session lm strtold ls w ->
    let rs := printed_results (output w) in
    map fst rs = map (fun k => (k mod 26)%nat) (seq 0 (List.length rs)) /\
    result_offset w = (List.length rs mod 26)%nat /\
    forall i, (i < 26)%nat -> exists v, nth_error (registers w) i = Some v /\
      match last_printed i rs with Some p => shows lm v p | None => v = zero_value end.
Proof. exact history_session. Qed.
Print Assumptions C65_registers.
Example C65_case : forall strtold, exists w w', session ideal strtold [str "1 2 +"] w /\
  printed_results (output w) <> [] /\ session ideal strtold [str "takum8"] w' /\ takum_type_ w' = TAKUM8.
Proof. exact (fun strtold => sessions_exist ideal strtold ideal_c99). Qed.

(** C66: the name of a type switches to it, and nothing else does *)
Theorem C66_switch_type :
  forall lm strtold w line name T, words line [name] -> In (name, T) types ->
    exists w', process_line lm strtold line w = Val w' /\ takum_type_ w' = T /\ registers w' = registers w /\
      result_offset w' = result_offset w /\ output w' = output w ++ [Prompt].
Proof. exact switch_type. Qed.
Print Assumptions C66_switch_type.
Theorem C66_type_kept :
  forall lm strtold w line ws w', words line ws -> (forall t, In t ws -> ~ In t (map fst types)) ->
    process_line lm strtold line w = Val w' -> takum_type_ w' = takum_type_ w.
Proof. exact line_keeps_type. Qed.
Print Assumptions C66_type_kept.
Example C66_case : words (str "takum_linear16" ++ ["010"%char]) [str "takum_linear16"] /\
  In (str "takum_linear16", TAKUM_LINEAR16) types /\
  words (str "1 2 +") [str "1"; str "2"; str "+"] /\ ~ In (str "+") (map fst types).
Proof.
  split; [apply words_iff; vm_compute; reflexivity|]. split; [do 5 right; left; reflexivity|]. split; [apply words_iff; vm_compute; reflexivity|].
  intros H. repeat (destruct H as [H|H]; [discriminate|]). destruct H.
Qed.

(** C67: in a logarithmic type every line without abs has defined behaviour,
    whatever its words are; in a linear type every line without operators *)
Theorem C67_lines_defined :
  forall lm strtold ls w line ws, c99 lm -> session lm strtold ls w -> words line ws ->
    (forall token, In token ws ->
       (~ In token (map fst names1) /\ ~ In token (map fst names2)) \/
       (kind_of (takum_type_ w) = Logarithmic /\ token <> str "abs")) ->
    exists w', process_line lm strtold line w = Val w'.
Proof. exact line_defined. Qed.
Print Assumptions C67_lines_defined.
Example C67_case : words (str "1 foo / a 0x1p 2 root takum8") (map str ["1"; "foo"; "/"; "a"; "0x1p"; "2"; "root"; "takum8"]%string) /\
  kind_of (takum_type_ (initial [])) = Logarithmic.
Proof. split; [apply words_iff; vm_compute; reflexivity|reflexivity]. Qed.

(** C68: other lines do not: the absolute value of NaR, and results of linear
    types that are NaR or beyond the range of int64_t *)
Theorem C68_lines_defined_refuted :
  ~ (forall lm strtold ls w line, c99 lm -> session lm strtold ls w -> process_line lm strtold line w <> UB).
Proof. exact (fun H => H ideal (fun _ => (B754_nan, false)) [] (initial []) (str "9223372036854775807 abs") ideal_c99 eq_refl (abs_undefined ideal _ ideal_c99)). Qed.
Print Assumptions C68_lines_defined_refuted.
Theorem C68_one_operand_undefined :
  forall lm strtold, c99 lm -> forall ls w line name o a v f x, session lm strtold ls w ->
    words line (postfix a ++ [name]) -> In (name, o) names1 ->
    evaluates lm strtold (takum_type_ w) (registers w) a v ->
    op1_function lm (takum_type_ w) o f -> casts lm v (takum_type_ w) x ->
    f x = UB \/ (exists r, f x = Val r /\ ~ acceptable (kind_of (takum_type_ w)) (bits_of (takum_type_ w)) r) ->
    process_line lm strtold line w = UB.
Proof. exact undefined1. Qed.
Print Assumptions C68_one_operand_undefined.
Theorem C68_two_operands_undefined :
  forall lm strtold, c99 lm -> forall ls w line name o a b u v r, session lm strtold ls w ->
    words line (postfix a ++ postfix b ++ [name]) -> In (name, o) names2 ->
    evaluates lm strtold (takum_type_ w) (registers w) a u -> evaluates lm strtold (takum_type_ w) (registers w) b v ->
    op2_result lm (takum_type_ w) o u v r -> ~ acceptable (kind_of (takum_type_ w)) (bits_of (takum_type_ w)) r ->
    process_line lm strtold line w = UB.
Proof. exact undefined2. Qed.
Print Assumptions C68_two_operands_undefined.
(** 1 / 0 *)
Example C68_case : forall strtold, exists w, session ideal strtold [str "takum_linear64"] w /\
  process_line ideal strtold (str "1 0 /") w = UB.
Proof. exact (fun strtold => division_undefined ideal strtold ideal_c99). Qed.

(** C69: the line of an operator prints an integer exactly if the number it
    stores is that integer and one the type recognises *)
Theorem C69_printed_integer_exact :
  forall lm strtold, c99 lm -> forall ls w line before name w' i p, session lm strtold ls w ->
    words line (before ++ [name]) -> In name (map fst names1 ++ map fst names2) ->
    process_line lm strtold line w = Val w' -> printed_results (output w') = printed_results (output w) ++ [(i, p)] ->
    exists v, nth_error (registers w') i = Some v /\ vtype v = takum_type_ w /\
      forall z, p = PInt z <->
        match kind_of (takum_type_ w) with Logarithmic => -1 <= z <= 1 | Linear => - 2 ^ 63 <= z < 2 ^ 63 - 1 end /\
        value (kind_of (takum_type_ w)) (bits_of (takum_type_ w)) (vtakum v) = Some (IZR z).
Proof. exact operator_line. Qed.
Print Assumptions C69_printed_integer_exact.
(** 1 + 2 *)
Example C69_case : forall strtold, session ideal strtold [] (initial []) /\
  words (str "1 2 +") ([str "1"; str "2"] ++ [str "+"]) /\ In (str "+") (map fst names1 ++ map fst names2) /\
  exists w' p, process_line ideal strtold (str "1 2 +") (initial []) = Val w' /\
    printed_results (output w') = printed_results (output (initial [])) ++ [(0%nat, p)].
Proof.
  intros strtold. split; [reflexivity|]. split; [apply words_iff; vm_compute; reflexivity|]. split; [apply in_or_app; right; left; reflexivity|].
  exact (sum_line ideal strtold ideal_c99).
Qed.

(** C70: but a literal is printed as written even if it was rounded *)
Theorem C70_printed_literal_refuted :
  ~ (forall lm strtold ls w line ws w' i z v, c99 lm -> session lm strtold ls w -> words line ws ->
      process_line lm strtold line w = Val w' ->
      printed_results (output w') = printed_results (output w) ++ [(i, PInt z)] ->
      nth_error (registers w') i = Some v -> value (kind_of (vtype v)) (bits_of (vtype v)) (vtakum v) = Some (IZR z)).
Proof. exact literal_line_refuted. Qed.
Print Assumptions C70_printed_literal_refuted.

(** C71: decimal integers from -2^63 to 2^63 - 2 are read exactly, and rounded
    faithfully to the current type *)
Theorem C71_integer_literals :
  forall lm strtold, c99 lm -> forall ls w line s z, session lm strtold ls w -> words line [s] -> numeral s z ->
    - 2 ^ 63 <= z < 2 ^ 63 - 1 ->
    exists w' t, process_line lm strtold line w = Val w' /\
      output w' = output w ++ [Result (result_offset w) (PInt z); Prompt] /\
      registers w' = replaced (result_offset w) (mk_tvalue (takum_type_ w) t (Some z)) (registers w) /\
      rounds_faithfully (kind_of (takum_type_ w)) (bits_of (takum_type_ w)) (IZR z) t.
Proof. exact integer_line. Qed.
Print Assumptions C71_integer_literals.
(** larger ones give NaR *)
Theorem C71_large_literals :
  forall lm strtold, c99 lm -> forall ls w line s z, session lm strtold ls w -> words line [s] -> numeral s z ->
    2 ^ 63 - 1 <= z ->
    exists w', process_line lm strtold line w = Val w' /\
      output w' = output w ++ [Result (result_offset w) PNaR; Prompt] /\
      registers w' = replaced (result_offset w) (mk_tvalue (takum_type_ w) (nar (bits_of (takum_type_ w))) None) (registers w).
Proof. exact large_line. Qed.
Print Assumptions C71_large_literals.
Example C71_case : numeral (str "-100") (-100) /\ numeral (str "9223372036854775807") (2 ^ 63 - 1) /\
  words (str "-100" ++ ["010"%char]) [str "-100"].
Proof.
  split; [|split; [exact numeral_big|apply words_iff; vm_compute; reflexivity]].
  apply (numeral_negative [1;0;0]%nat). split; [repeat (constructor; [lia|]); constructor|]. right. do 2 eexists. split; [reflexivity|discriminate].
Qed.

(** C72: integers below -2^63 are taken for -2^63 *)
Theorem C72_small_literals_refuted :
  ~ (forall lm strtold ls w line s z w', c99 lm -> session lm strtold ls w -> words line [s] -> numeral s z ->
      process_line lm strtold line w = Val w' ->
      output w' = output w ++ [Result (result_offset w) (PInt z); Prompt] \/
      output w' = output w ++ [Result (result_offset w) PNaR; Prompt]).
Proof. exact small_refuted. Qed.
Print Assumptions C72_small_literals_refuted.

(** C73: the program processes exactly the lines of its input, up to their
    first NUL, one after the other, and reading them never fails *)
Theorem C73_main_processes_lines :
  forall bufsiz, (4 <= bufsiz)%nat -> forall lm strtold input, c99 lm ->
    calculator lm strtold bufsiz input [] =
      let! w := run lm strtold (map up_to_nul (lines input)) (initial []) in Val (Some w).
Proof. exact calculator_spec. Qed.
Print Assumptions C73_main_processes_lines.
(** reading a line stays within its buffer, whichever allocations fail *)
Theorem C73_reading_safe :
  forall bufsiz, (4 <= bufsiz)%nat -> forall b input m, buffer_ok b ->
    exists g, getline bufsiz b input m = Val g /\ buffer_ok (line_buffer g) /\
      (m = [] -> left_allocations g = []) /\
      ((returned g = None /\ (input = [] \/ In false m)) \/
       exists taken rest, has_read g taken rest /\ lines input = taken :: lines rest /\
         (List.length rest < List.length input)%nat).
Proof. exact getline_spec. Qed.
Print Assumptions C73_reading_safe.
Example C73_case : lines (str "1" ++ ["010"%char; "010"%char] ++ str "a") = [str "1" ++ ["010"%char]; ["010"%char]; str "a"] /\
  buffer_ok (mk_buffer None 0) /\ buffer_ok (mk_buffer (Some (repeat None 256)) 256).
Proof. split; [vm_compute; reflexivity|]. split; [exact Logic.I|]. split; [reflexivity|cbn; lia]. Qed.

(** C74: if memory for the stack runs out, the program goes on with a null
    pointer *)
Theorem C74_exhaustion_refuted :
  ~ (forall lm strtold bufsiz input m w, c99 lm -> (256 <= bufsiz)%nat ->
      calculator lm strtold bufsiz input [] = Val (Some w) -> calculator lm strtold bufsiz input m <> UB).
Proof. exact exhaustion_refuted. Qed.
Print Assumptions C74_exhaustion_refuted.
