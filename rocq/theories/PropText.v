(** The text the calculator prints, used as input. *)
From Coq Require Import ZArith List Bool Ascii String Reals Lia.
From Flocq Require Import IEEE754.BinarySingleNaN.
From Verif Require Import CModel FloatModel Libm LibmSpec LibmIdeal Spec Calculator CalcSpec CalcFacts CalcRun CalcSession CalcWitness CalcExact TextSpec TextFacts TextTrip TextLibrary TextSession TextWitness TextTotal.
Import ListNotations.
Local Open Scope Z_scope.

(** C120: at 8 and 16 bits, entering the text printed for a register gives its
    takum again *)
Theorem C120_text_round_trip :
  forall lm strtold, c99 lm -> reads_decimals strtold ->
    forall ls w i p v text line, session lm strtold ls w ->
      last_printed i (printed_results (output w)) = Some p -> nth_error (registers w) i = Some v ->
      vtype v = takum_type_ w -> bits_of (vtype v) <= 16 -> p <> PNaR ->
      printed_text p text -> words line [text] ->
      exists w' v', process_line lm strtold line w = Val w' /\
        registers w' = replaced (result_offset w) v' (registers w) /\
        vtype v' = vtype v /\ vtakum v' = vtakum v.
Proof. exact session_trip. Qed.
Print Assumptions C120_text_round_trip.
(** 5 / 4 as takum_linear16, printed as 1.25, with a strtold that rounds correctly *)
Example C120_case : reads_decimals strtold_ideal /\ exists w y,
  session ideal strtold_ideal [str "takum_linear16"; str "5 4 /"] w /\ takum_type_ w = TAKUM_LINEAR16 /\
  nth_error (registers w) 0 = Some (mk_tvalue TAKUM_LINEAR16 16896 None) /\
  last_printed 0 (printed_results (output w)) = Some (PFloat y) /\ printed_text (PFloat y) (str "1.25") /\
  words (str "1.25") [str "1.25"].
Proof.
  split; [exact strtold_ideal_ok|]. destruct (session16 ideal strtold_ideal ideal_c99) as (w & y & S & T & N & L & P).
  exists w, y. repeat (split; [assumption|]). apply words_compute. vm_compute. reflexivity.
Qed.
(** every number has a text *)
Example C120_texts_exist : forall p, exists text, printed_text p text.
Proof. exact printed_exists. Qed.
(** some texts of %Lg *)
Example C120_texts :
  six_digit_text [7; 4; 5; 0; 5; 8]%nat (-9) (str "7.45058e-09") /\ six_digit_text [1; 2; 5; 0; 0; 0]%nat 4 (str "12500") /\
  six_digit_text [1; 2; 5; 0; 0; 0]%nat (-3) (str "0.00125") /\ six_digit_text [1; 0; 0; 0; 0; 0]%nat 100 (str "1e+100").
Proof.
  split; [|split; [|split]].
  - apply (text_exponent [7; 4; 5; 0; 5; 8]%nat (-9) [0; 9]%nat); [lia|]. split; [repeat (constructor; [lia|]); constructor|]. split; [reflexivity|left; reflexivity].
  - apply (text_whole [1; 2; 5; 0; 0; 0]%nat 4). lia.
  - apply (text_fraction [1; 2; 5; 0; 0; 0]%nat (-3)). lia.
  - apply (text_exponent [1; 0; 0; 0; 0; 0]%nat 100 [1; 0; 0]%nat); [lia|]. split; [repeat (constructor; [lia|]); constructor|]. split; [reflexivity|]. right. split; [cbn; lia|discriminate].
Qed.

(** C121: a text with six digits is that close to the number of the register, at
    all widths *)
Theorem C121_text_accurate :
  forall lm strtold, c99 lm -> forall ls w i y v x text, session lm strtold ls w ->
    last_printed i (printed_results (output w)) = Some (PFloat y) -> nth_error (registers w) i = Some v ->
    value (kind_of (vtype v)) (bits_of (vtype v)) (vtakum v) = Some x -> printed_text (PFloat y) text ->
    exists q, decimal_text text q /\ (Rabs (q - x) <= 501 / 100000000 * Rabs x)%R.
Proof. exact session_accurate. Qed.
Print Assumptions C121_text_accurate.
(** 8388609 / 8388608 as takum_linear32, printed as 1 *)
Example C121_case : forall strtold, exists w y, session ideal strtold [str "takum_linear32"; str "8388609 8388608 /"] w /\
  nth_error (registers w) 0 = Some (mk_tvalue TAKUM_LINEAR32 1073741840 None) /\
  last_printed 0 (printed_results (output w)) = Some (PFloat y) /\ printed_text (PFloat y) (str "1") /\
  value Linear 32 1073741840 = Some (1 + / 8388608)%R.
Proof.
  intros strtold. destruct (session32 ideal strtold ideal_c99) as (w & y & S & _ & N & L & P). exists w, y. repeat (split; [assumption|]). exact value32.
Qed.

(** C122: that the text printed for a register gives its takum again fails at 32
    bits *)
Theorem C122_text_round_trip_refuted :
  ~ (forall lm strtold ls w i p v text line, c99 lm -> reads_decimals strtold -> session lm strtold ls w ->
      last_printed i (printed_results (output w)) = Some p -> nth_error (registers w) i = Some v ->
      vtype v = takum_type_ w -> p <> PNaR -> printed_text p text -> words line [text] ->
      exists w' v', process_line lm strtold line w = Val w' /\
        registers w' = replaced (result_offset w) v' (registers w) /\
        vtype v' = vtype v /\ vtakum v' = vtakum v).
Proof. exact trip_refuted. Qed.
Print Assumptions C122_text_round_trip_refuted.
(** and NaR, printed so at all widths, is not accepted, as strtold does not read it *)
Theorem C122_nar_not_accepted :
  forall lm strtold, c99 lm -> forall ls w line, snd (strtold (str "NaR")) = false ->
    session lm strtold ls w -> words line [str "NaR"] ->
    exists w', process_line lm strtold line w = Val w' /\
      output w' = output w ++ [InvalidToken (str "NaR"); Prompt] /\ registers w' = registers w.
Proof. exact nar_line. Qed.
Print Assumptions C122_nar_not_accepted.
Example C122_case : snd (strtold_ideal (str "NaR")) = false /\ session ideal strtold_ideal [] (initial []) /\
  words (str "NaR") [str "NaR"] /\ printed_text PNaR (str "NaR").
Proof. split; [reflexivity|]. split; [reflexivity|]. split; [apply words_compute; vm_compute; reflexivity|reflexivity]. Qed.

(** C123: an integer printed for the result of an operator, entered again, gives
    the same number, at all widths *)
Theorem C123_integer_round_trip :
  forall lm strtold, c99 lm -> forall ls w line before name w' i z text line2, session lm strtold ls w ->
    words line (before ++ [name]) -> In name (map fst names1 ++ map fst names2) ->
    process_line lm strtold line w = Val w' ->
    printed_results (output w') = printed_results (output w) ++ [(i, PInt z)] ->
    numeral text z -> words line2 [text] ->
    exists v w2, nth_error (registers w') i = Some v /\ process_line lm strtold line2 w' = Val w2 /\
      registers w2 = replaced (result_offset w') v (registers w').
Proof. exact integer_trip. Qed.
Print Assumptions C123_integer_round_trip.
(** 8388608 / 4 as takum_linear32 *)
Example C123_case : forall strtold, exists w w', session ideal strtold [str "takum_linear32"] w /\
  words (str "8388608 4 /") ([str "8388608"; str "4"] ++ [str "/"]) /\ In (str "/") (map fst names1 ++ map fst names2) /\
  process_line ideal strtold (str "8388608 4 /") w = Val w' /\
  printed_results (output w') = printed_results (output w) ++ [(0%nat, PInt 2097152)] /\
  numeral (str "2097152") 2097152 /\ words (str "2097152") [str "2097152"].
Proof. exact (fun strtold => integer_quotient ideal strtold ideal_c99). Qed.
