(** Integer literals of the calculator in all notations of C. *)
From Coq Require Import ZArith List Bool Ascii String Reals Lia Lra.
From Flocq Require Import Core.Core IEEE754.BinarySingleNaN.
From Verif Require Import CModel FloatModel Libm Spec WidthConv WidthApi LogApi LinApi Conversion Arith Wrappers WrapApi WidthFacts FloatFacts LibmSpec WrapTotal WrapBin WrapPow Calculator CalcSpec CalcLineSpec CalcFacts CalcOps CalcStep CalcEval CalcRun CalcSession CalcInput CalcLiteral CalcWitness.
Import ListNotations.
Local Open Scope Z_scope.

Lemma hex_case : forall c d, hex_digit c d -> digit c = Some (Z.of_nat d) /\ (d < 16)%nat.
Proof.
  intros c d [[H ->]|[H [->| ->]]].
  - do 10 (destruct d as [|d]; [split; [reflexivity|lia]|]). lia.
  - do 10 (destruct d as [|d]; [lia|]). do 6 (destruct d as [|d]; [split; [reflexivity|lia]|]). lia.
  - do 10 (destruct d as [|d]; [lia|]). do 6 (destruct d as [|d]; [split; [reflexivity|lia]|]). lia.
Qed.
Lemma read_base : forall base cs ds acc, Forall2 (fun c d => digit c = Some (Z.of_nat d) /\ Z.of_nat d < base) cs ds ->
  read_digits base acc cs = (fold_left (fun a d => base * a + Z.of_nat d) ds acc, []).
Proof.
  intros base cs ds acc F. revert acc. induction F as [|c d cs ds [E L] _ IH]; intros acc; [reflexivity|]. cbn [read_digits fold_left]. rewrite E.
  destruct (Z.ltb_spec (Z.of_nat d) base); [|lia]. rewrite IH. f_equal. f_equal. lia.
Qed.
Lemma octal_digits : forall ds, Forall (fun d => (d < 8)%nat) ds ->
  Forall2 (fun c d => digit c = Some (Z.of_nat d) /\ Z.of_nat d < 8) (map decimal_digit ds) ds.
Proof.
  induction 1 as [|d ds H _ IH]; [constructor|]. cbn [map]. constructor; [|assumption]. split; [|lia]. apply (digit_case d). lia.
Qed.
Lemma hex_digits : forall cs ds, Forall2 hex_digit cs ds -> Forall2 (fun c d => digit c = Some (Z.of_nat d) /\ Z.of_nat d < 16) cs ds.
Proof. induction 1 as [|c d cs ds H _ IH]; constructor; [|assumption]. destruct (hex_case c d H). split; [assumption|lia]. Qed.

Definition signed (neg : bool) (z : Z) : Z := if neg then - z else z.
Lemma after_constant : forall whole neg s z, c_constant s z -> after_sign whole neg s = (clamp64 (signed neg z), true).
Proof.
  intros whole neg s z H. destruct H as [ds D|ds F|x cs ds X N F].
  - exact (after_digits whole neg ds D).
  - pose proof (read_base 8 _ _ 0 (octal_digits ds F)) as R. fold (base_value 8 ds) in R.
    assert (read_digits 8 0 ("0"%char :: map decimal_digit ds) = (base_value 8 ds, [])) as R0.
    { change (read_digits 8 0 ("0"%char :: map decimal_digit ds)) with (read_digits 8 0 (map decimal_digit ds)). exact R. }
    destruct ds as [|d1 ds]; [destruct neg; reflexivity|]. inversion F as [|? ? H1 _]; subst.
    unfold after_sign. cbn [map] in *. change (is_digit 8 "0") with true. cbv iota. rewrite R0.
    destruct (map decimal_digit ds) as [|c2 s]; destruct (ascii_dec "0" "0"); try contradiction; [reflexivity|].
    destruct (ascii_dec (decimal_digit d1) "x") as [Q|_]; [exfalso; revert Q; do 8 (destruct d1 as [|d1]; [discriminate|]); lia|].
    destruct (ascii_dec (decimal_digit d1) "X") as [Q|_]; [exfalso; revert Q; do 8 (destruct d1 as [|d1]; [discriminate|]); lia|]. reflexivity.
  - pose proof (read_base 16 _ _ 0 (hex_digits cs ds F)) as R. fold (base_value 16 ds) in R.
    destruct F as [|c d cs ds Hc _]; [contradiction|]. destruct (hex_case c d Hc) as [Ed Ld].
    assert (is_digit 16 c = true) as I by (unfold is_digit; rewrite Ed; apply Z.ltb_lt; lia).
    unfold after_sign. destruct (ascii_dec "0" "0"); [|contradiction].
    assert ((if ascii_dec x "x" then true else if ascii_dec x "X" then true else false) = true) as -> by (destruct X as [-> | ->]; reflexivity).
    rewrite I. cbn [andb]. rewrite R. reflexivity.
Qed.
Lemma constant_head : forall s z, c_constant s z -> exists d s', s = decimal_digit d :: s' /\ (d < 10)%nat.
Proof.
  intros s z [ds [F [->|(d & ds' & -> & N)]]|ds F|x cs ds X N F].
  - exists 0%nat, []. split; [reflexivity|lia].
  - inversion F; subst. exists d, (map decimal_digit ds'). split; [reflexivity|assumption].
  - exists 0%nat, (map decimal_digit ds). split; [reflexivity|lia].
  - exists 0%nat, (x :: cs). split; [reflexivity|lia].
Qed.
Lemma strtoll_signs : forall s, strtoll s = let s1 := skip_space s in
  let '(neg, s2) := match s1 with c :: s' => if ascii_dec c "-" then (true, s') else if ascii_dec c "+" then (false, s') else (false, s1) | [] => (false, s1) end in
  after_sign s neg s2.
Proof. reflexivity. Qed.
Lemma strtoll_integer : forall s z, c_integer s z -> strtoll s = (clamp64 z, true).
Proof.
  intros s z H. rewrite strtoll_signs. cbv zeta. destruct H as [s z H|s z H|s z H].
  - pose proof (after_constant s false s z H) as A. destruct (constant_head s z H) as (d & s' & E & Hd).
    destruct (digit_case d Hd) as (_ & E2 & E3 & E4 & _).
    assert (skip_space s = s) as -> by (rewrite E; cbn [skip_space]; rewrite E2; reflexivity). rewrite E at 1.
    destruct (ascii_dec (decimal_digit d) "-"); [contradiction|]. destruct (ascii_dec (decimal_digit d) "+"); [contradiction|]. exact A.
  - exact (after_constant _ false s z H).
  - exact (after_constant _ true s z H).
Qed.

(** such a text is neither reserved nor a register *)
Definition not_integer (s : bytes) : bool :=
  match s with
  | [] => true
  | c :: s' =>
      if ascii_dec c "-" then match s' with [] => true | d :: _ => negb (is_digit 10 d) end
      else if ascii_dec c "+" then match s' with [] => true | d :: _ => negb (is_digit 10 d) end
      else negb (is_digit 10 c)
  end.
Lemma integer_looks : forall s z, c_integer s z -> not_integer s = false.
Proof.
  intros s z [s' z' H|s' z' H|s' z' H]; destruct (constant_head s' z' H) as (d & s'' & -> & Hd); destruct (digit_case d Hd) as (E1 & E2 & E3 & E4 & _); cbn [not_integer].
  - destruct (ascii_dec (decimal_digit d) "-"); [contradiction|]. destruct (ascii_dec (decimal_digit d) "+"); [contradiction|]. unfold is_digit. rewrite E1. destruct (Z.ltb_spec (Z.of_nat d) 10); [reflexivity|lia].
  - destruct (ascii_dec "+" "-"); [discriminate|]. destruct (ascii_dec "+" "+"); [|contradiction]. unfold is_digit. rewrite E1. destruct (Z.ltb_spec (Z.of_nat d) 10); [reflexivity|lia].
  - destruct (ascii_dec "-" "-"); [|contradiction]. unfold is_digit. rewrite E1. destruct (Z.ltb_spec (Z.of_nat d) 10); [reflexivity|lia].
Qed.
Lemma integer_not_reserved : forall s z, c_integer s z -> ~ In s reserved /\ ~ is_letter s.
Proof.
  intros s z H. apply integer_looks in H. split.
  - intros I. assert (forallb not_integer reserved = true) as F by (vm_compute; reflexivity). rewrite forallb_forall in F. rewrite (F s I) in H. discriminate.
  - intros (i & Hi & ->). do 26 (destruct i as [|i]; [discriminate H|]). lia.
Qed.

Section Literal.
Variable lm : libm.
Variable strtold : bytes -> flt f80 * bool.
Hypothesis lm_ok : c99 lm.

Lemma c_literal : forall T s z, c_integer s z -> - 2 ^ 63 <= z < 2 ^ 63 - 1 ->
  exists t, is_literal lm strtold T s (mk_tvalue T t (Some z)) /\ rounds_faithfully (kind_of T) (bits_of T) (IZR z) t.
Proof.
  intros T s z H R. destruct (integer_not_reserved s z H) as [N1 N2].
  assert (isf (fint f80 z) (IZR z)) as I by (apply isf_int80; lia).
  destruct (from_faithful lm (kind_of T) (bits_of T) f80 (from_extended_float lm T) (fint f80 z) lm_ok (from_float_ext lm T) (proj1 I)) as (t & E & F).
  exists t. split; [|rewrite <- (proj2 I); exact F]. split; [assumption|]. split; [assumption|]. split; [reflexivity|].
  exists (from_extended_float lm T), (fint f80 z). split; [apply from_float_ext|]. split; [|exact E]. cbn [vint].
  apply reads_integer; [|lia]. rewrite (strtoll_integer s z H). f_equal. unfold clamp64, INT64_MIN, INT64_MAX. lia.
Qed.
Lemma c_integer_line : forall ls w line s z, session lm strtold ls w -> words line [s] -> c_integer s z -> - 2 ^ 63 <= z < 2 ^ 63 - 1 ->
  exists w' t, process_line lm strtold line w = Val w' /\
    output w' = output w ++ [Result (result_offset w) (PInt z); Prompt] /\
    registers w' = replaced (result_offset w) (mk_tvalue (takum_type_ w) t (Some z)) (registers w) /\
    rounds_faithfully (kind_of (takum_type_ w)) (bits_of (takum_type_ w)) (IZR z) t.
Proof.
  intros ls w line s z S W N R. destruct (c_literal (takum_type_ w) s z N R) as (t & L & F).
  destruct (expression_line lm strtold ls w line [s] lm_ok S W (Literal s) _ eq_refl (ev_literal _ _ _ _ _ _ L)) as (w' & p & E & Sh & O & Rg & _).
  exists w', t. split; [assumption|]. unfold shows in Sh. cbn [vint] in Sh. rewrite Sh in O. auto.
Qed.
Lemma ten_octal : c_integer (str "010") 8.
Proof. apply c_unsigned. apply (c_octal [1; 0]%nat). repeat (constructor; [lia|]). constructor. Qed.
Lemma leading_zeros :
  ~ (forall ls w line s ds w', session lm strtold ls w -> words line [s] -> s = map decimal_digit ds -> ds <> [] ->
      Forall (fun d => (d < 10)%nat) ds -> decimal_value ds < 2 ^ 63 - 1 -> process_line lm strtold line w = Val w' ->
      output w' = output w ++ [Result (result_offset w) (PInt (decimal_value ds)); Prompt]).
Proof.
  intros H. assert (words (str "010") [str "010"]) as W by (apply words_compute; vm_compute; reflexivity).
  destruct (c_integer_line [] (initial []) _ _ _ eq_refl W ten_octal ltac:(lia)) as (w' & t & E & O & _).
  specialize (H [] (initial []) _ _ [0; 1; 0]%nat w' eq_refl W eq_refl ltac:(discriminate) ltac:(repeat (constructor; [lia|]); constructor) ltac:(vm_compute; reflexivity) E).
  rewrite O in H. apply app_inv_head in H. vm_compute in H. discriminate H.
Qed.
End Literal.

(** * The start, and more input *)
Section Start.
Variable lm : libm.
Variable strtold : bytes -> flt f80 * bool.
Variable bufsiz : nat.
Hypothesis bufsiz_ok : (4 <= bufsiz)%nat.
Hypothesis lm_ok : c99 lm.

Lemma start : exists w, calculator lm strtold bufsiz [] [] = Val (Some w) /\ takum_type_ w = TAKUM64 /\
  registers w = repeat zero_value 26 /\ result_offset w = 0%nat /\ output w = [Welcome; Prompt].
Proof.
  exists (initial []). rewrite (calculator_spec bufsiz bufsiz_ok lm strtold [] lm_ok). split; [reflexivity|]. repeat split.
Qed.

Lemma nul_newline : forall s, up_to_nul (s ++ ["010"%char]) = up_to_nul s \/ up_to_nul (s ++ ["010"%char]) = up_to_nul s ++ ["010"%char].
Proof.
  induction s as [|c s IH]; [right; reflexivity|]. cbn [app up_to_nul]. destruct (ascii_dec c "000"); [left; reflexivity|].
  destruct IH as [-> | ->]; [left|right]; reflexivity.
Qed.
Lemma strtok_newline : forall s run, strtok_all run (s ++ ["010"%char]) = strtok_all run s.
Proof.
  induction s as [|c s IH]; intros run; [destruct run; reflexivity|]. cbn [app strtok_all].
  destruct (is_delimiter c); [destruct run; rewrite IH; reflexivity|apply IH].
Qed.
Lemma line_newline : forall s w, process_line lm strtold (up_to_nul (s ++ ["010"%char])) w = process_line lm strtold (up_to_nul s) w.
Proof.
  intros s w. destruct (nul_newline s) as [-> | ->]; [reflexivity|]. unfold process_line. rewrite strtok_newline. reflexivity.
Qed.
Lemma more_lines : forall input' input acc, exists pre, forall w,
  run lm strtold (map up_to_nul (lines_from acc (input ++ "010"%char :: input'))) w =
  let! w1 := run lm strtold (map up_to_nul (lines_from acc input)) w in run lm strtold (pre ++ map up_to_nul (lines input')) w1.
Proof.
  intros input'. induction input as [|c input IH]; intros acc.
  - cbn [app lines_from]. destruct (ascii_dec "010" "010"); [|contradiction]. destruct acc as [|a acc].
    + exists [["010"%char]]. intros w. reflexivity.
    + exists []. intros w. cbn [map run app]. rewrite (line_newline (a :: acc)). destruct (process_line lm strtold (up_to_nul (a :: acc)) w); reflexivity.
  - cbn [app lines_from]. destruct (ascii_dec c "010"); [|apply IH].
    destruct (IH []) as (pre & H). exists pre. intros w. cbn [map run]. destruct (process_line lm strtold (up_to_nul (acc ++ [c])) w) as [w1|]; [apply H|reflexivity].
Qed.
Lemma run_grows : forall ls w w', good lm w -> run lm strtold ls w = Val w' -> exists more, output w' = output w ++ more.
Proof.
  induction ls as [|l ls IH]; intros w w' G E; cbn [run] in E.
  - injection E as <-. exists []. rewrite app_nil_r. reflexivity.
  - destruct (process_line lm strtold l w) as [w1|] eqn:E1; [|discriminate]. cbn [bind] in E.
    pose proof (line_spec lm strtold l w G) as L. cbv zeta in L. rewrite E1 in L. destruct L as [G1 L]. destruct (IH w1 w' G1 E) as (more & O).
    assert (exists m1, output w1 = output w ++ m1) as (m1 & O1).
    { destruct L as [(nb & p & _ & _ & O1 & _)|[_ ((es & O1 & _) & _)]]; eexists; exact O1. }
    exists (m1 ++ more). rewrite O, O1, app_assoc. reflexivity.
Qed.
Lemma output_grows : forall input input' w w',
  calculator lm strtold bufsiz input [] = Val (Some w) ->
  calculator lm strtold bufsiz (input ++ "010"%char :: input') [] = Val (Some w') ->
  exists more, output w' = output w ++ more.
Proof.
  intros input input' w w' E E'. rewrite (calculator_spec bufsiz bufsiz_ok lm strtold _ lm_ok) in E. rewrite (calculator_spec bufsiz bufsiz_ok lm strtold _ lm_ok) in E'.
  destruct (more_lines input' input []) as (pre & M). unfold lines in E. unfold lines in E' at 1. rewrite M in E'.
  destruct (run lm strtold (map up_to_nul (lines_from [] input)) (initial [])) as [w1|] eqn:E1; [|discriminate]. cbn [bind] in E, E'.
  injection E as <-. destruct (run lm strtold (pre ++ map up_to_nul (lines input')) w1) as [w2|] eqn:E2; [|discriminate]. cbn [bind] in E'. injection E' as <-.
  eapply run_grows; [|exact E2]. eapply good_run; [apply good_initial, lm_ok|exact E1].
Qed.
Lemma typed : exists w w', calculator lm strtold bufsiz (str "takum8") [] = Val (Some w) /\
  calculator lm strtold bufsiz (str "takum8" ++ "010"%char :: str "?") [] = Val (Some w').
Proof. rewrite !(calculator_spec bufsiz bufsiz_ok lm strtold _ lm_ok). do 2 eexists. split; reflexivity. Qed.
End Start.
