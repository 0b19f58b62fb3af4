(** Inputs on which the calculator fails, and literals. *)
From Coq Require Import ZArith List Bool Ascii String Reals Lia Lra.
From Flocq Require Import Core.Core IEEE754.BinarySingleNaN.
From Verif Require Import CModel FloatModel Libm Spec WidthConv WidthApi LogApi LinApi Conversion Arith Wrappers WrapApi WidthFacts ValueFacts FloatFacts MiscProps LinProps LibmSpec LibmIdeal LinDec LogConv WrapTotal WrapBin Calculator CalcSpec CalcFacts CalcOps CalcStep CalcEval CalcRun CalcSession CalcInput CalcLiteral.
Import ListNotations.
Local Open Scope Z_scope.

Ltac in_list := first [left; reflexivity | right; in_list].
Lemma words_compute : forall line ws, strtok_all [] line = ws -> words line ws.
Proof. intros line ws H. apply words_iff. exact H. Qed.

Lemma numeral_big : numeral (str "9223372036854775807") (2 ^ 63 - 1).
Proof.
  apply (numeral_positive [9;2;2;3;3;7;2;0;3;6;8;5;4;7;7;5;8;0;7]%nat). split; [|right; do 2 eexists; split; [reflexivity|discriminate]].
  repeat (constructor; [lia|]). constructor.
Qed.
Lemma numeral_low : numeral (str "-9223372036854775809") (- 2 ^ 63 - 1).
Proof.
  apply (numeral_negative [9;2;2;3;3;7;2;0;3;6;8;5;4;7;7;5;8;0;9]%nat). split; [|right; do 2 eexists; split; [reflexivity|discriminate]].
  repeat (constructor; [lia|]). constructor.
Qed.
Lemma numeral_100 : numeral (str "100") 100.
Proof. apply (numeral_positive [1;0;0]%nat). split; [|right; do 2 eexists; split; [reflexivity|discriminate]]. repeat (constructor; [lia|]). constructor. Qed.
Lemma numeral_1 : numeral (str "1") 1.
Proof. apply (numeral_positive [1]%nat). split; [|right; do 2 eexists; split; [reflexivity|discriminate]]. repeat (constructor; [lia|]). constructor. Qed.
Lemma numeral_2 : numeral (str "2") 2.
Proof. apply (numeral_positive [2]%nat). split; [|right; do 2 eexists; split; [reflexivity|discriminate]]. repeat (constructor; [lia|]). constructor. Qed.
Lemma numeral_0 : numeral (str "0") 0.
Proof. apply (numeral_positive [0]%nat). split; [|left; reflexivity]. repeat (constructor; [lia|]). constructor. Qed.

Lemma to_nar : forall lm, c99 lm -> forall k n F f, to_float lm k n F f -> f (nar n) = Val B754_nan.
Proof. intros lm C k n F f [n' F' f' H|n' F' f' H]; [apply (log_to_nar lm n' F' f' C H)|apply (linear_to_nar n' F' f' H)]. Qed.

Section Witness.
Variable lm : libm.
Variable strtold : bytes -> flt f80 * bool.
Hypothesis lm_ok : c99 lm.

Lemma session_nil : session lm strtold [] (initial []).
Proof. reflexivity. Qed.

(** in logarithmic types every expression has a value *)
Lemma literal_eval : forall T regs s z, numeral s z -> - 2 ^ 63 <= z < 2 ^ 63 - 1 ->
  exists v, evaluates lm strtold T regs (Literal s) v /\ exists t, v = mk_tvalue T t (Some z).
Proof.
  intros T regs s z H R. destruct (literal_int lm strtold lm_ok T s z H R) as (t & L & _). eexists. split; [apply ev_literal; exact L|eauto].
Qed.
Lemma sum_eval : exists v, evaluates lm strtold TAKUM64 (registers (initial [])) (Apply2 (str "+") (Literal (str "1")) (Literal (str "2"))) v.
Proof.
  destruct (literal_eval TAKUM64 (registers (initial [])) _ _ numeral_1 ltac:(lia)) as (u & Eu & tu & Qu).
  destruct (literal_eval TAKUM64 (registers (initial [])) _ _ numeral_2 ltac:(lia)) as (v & Ev & tv & Qv).
  assert (Forall (consistent lm) (results (initial []))) as F by (apply (good_initial lm lm_ok)).
  destruct (evaluates_run lm strtold TAKUM64 (results (initial [])) F _ _ Eu) as (nu & Au & Cu & _).
  destruct (evaluates_run lm strtold TAKUM64 (results (initial [])) F _ _ Ev) as (nv & Av & Cv & _).
  destruct (op2_run_total lm TAKUM64 (Two n_addition) nu nv _ Cu Cv eq_refl) as (r & Er & Ir).
  destruct (result_run lm TAKUM64 r Ir) as (nb & _ & _ & R); [discriminate|].
  exists (abstract nb). eapply (ev_apply2 lm strtold _ _ _ (Two n_addition)); [in_list|exact Eu|exact Ev| |exact R].
  rewrite <- Au, <- Av. apply op2_run_spec; [assumption..|]. cbn [op2_run]. rewrite Er. reflexivity.
Qed.

(** the absolute value of NaR *)
Lemma abs_undefined : process_line lm strtold (str "9223372036854775807 abs") (initial []) = UB.
Proof.
  eapply (undefined1 lm strtold lm_ok [] (initial []) _ (str "abs") Absolute (Literal (str "9223372036854775807"))).
  - exact session_nil.
  - apply words_compute. vm_compute. reflexivity.
  - in_list.
  - apply ev_literal. exact (literal_large lm strtold TAKUM64 _ _ numeral_big ltac:(lia)).
  - apply op_abs. constructor.
  - eexists. split; [apply cast_same|reflexivity].
  - left. reflexivity.
Qed.
(** a linear type *)
Lemma linear_session : forall name T, In (name, T) types -> words name [name] -> exists w, session lm strtold [name] w /\ takum_type_ w = T.
Proof.
  intros name T I W. destruct (switch_type lm strtold (initial []) name name T W I) as (w & E & Q & _).
  exists w. split; [|assumption]. apply (session_ext lm strtold [] name (initial []) w session_nil E).
Qed.
Lemma literal_lin64 : forall s z t, numeral s z -> - 2 ^ 63 <= z < 2 ^ 63 - 1 -> takum_linear64_from_extended_float x86_64 (fint f80 z) = Val t ->
  is_literal lm strtold TAKUM_LINEAR64 s (mk_tvalue TAKUM_LINEAR64 t (Some z)).
Proof.
  intros s z t H R E. destruct (literal_int lm strtold lm_ok TAKUM_LINEAR64 s z H R) as (t' & L & _).
  destruct (numeral_not_reserved s z H) as [N1 N2]. split; [assumption|]. split; [assumption|]. split; [reflexivity|].
  exists (from_extended_float lm TAKUM_LINEAR64), (fint f80 z). split; [apply from_float_ext|]. split; [|exact E].
  destruct L as (_ & _ & _ & f & x & _ & Rd & _). cbn [vint] in *.
  apply reads_integer; [|lia]. rewrite (strtoll_numeral s z H). f_equal. unfold clamp64, INT64_MIN, INT64_MAX. lia.
Qed.
Lemma division_undefined : exists w, session lm strtold [str "takum_linear64"] w /\ process_line lm strtold (str "1 0 /") w = UB.
Proof.
  destruct (linear_session (str "takum_linear64") TAKUM_LINEAR64) as (w & S & Q); [in_list|apply words_compute; vm_compute; reflexivity|].
  exists w. split; [assumption|].
  eapply (undefined2 lm strtold lm_ok _ w _ (str "/") (Two n_division) (Literal (str "1")) (Literal (str "0"))); rewrite ?Q.
  - exact S.
  - apply words_compute. vm_compute. reflexivity.
  - in_list.
  - apply ev_literal. apply (literal_lin64 _ 1 (2 ^ 62) numeral_1 ltac:(lia)). vm_compute. reflexivity.
  - apply ev_literal. apply (literal_lin64 _ 0 0 numeral_0 ltac:(lia)). vm_compute. reflexivity.
  - eapply (op_two lm TAKUM_LINEAR64 n_division).
    + eexists. split; [apply cast_same|reflexivity].
    + eexists. split; [apply cast_same|reflexivity].
    + cbn [vtakum]. instantiate (1 := nar 64). vm_compute. reflexivity.
  - intros A. destruct (A eq_refl) as (x & V & _). change (bits_of TAKUM_LINEAR64) with 64 in V. rewrite value_nar in V by lia. discriminate.
Qed.

(** * A rounded literal *)
Lemma reads_fun : forall token z x i, strtoll token = (z, true) -> z < 2 ^ 63 - 1 -> reads strtold token x i -> x = fint f80 z.
Proof.
  intros token z x i E L R. destruct R as [z' E1 E2|E1|z' x' E1|x' E1]; rewrite E in E1.
  - injection E1 as <-. reflexivity.
  - exfalso. injection E1 as ->. lia.
  - discriminate.
  - discriminate.
Qed.
Lemma literal_100 : exists w v, session lm strtold [str "takum_linear8"] w /\
  evaluates lm strtold (takum_type_ w) (registers w) (Literal (str "100")) v /\ shows lm v (PInt 100) /\
  vtype v = TAKUM_LINEAR8 /\ value Linear 8 (vtakum v) = Some 96%R.
Proof.
  destruct (linear_session (str "takum_linear8") TAKUM_LINEAR8) as (w & S & Q); [in_list|apply words_compute; vm_compute; reflexivity|].
  destruct (literal_int lm strtold lm_ok TAKUM_LINEAR8 _ _ numeral_100 ltac:(lia)) as (t & L & _).
  exists w, (mk_tvalue TAKUM_LINEAR8 t (Some 100)). split; [assumption|]. rewrite Q. split; [apply ev_literal; assumption|]. split; [reflexivity|]. split; [reflexivity|].
  destruct L as (_ & _ & _ & f & x & Hf & Rd & E). cbn [vtakum vint] in *. rewrite (from_float_det lm _ f Hf) in E.
  assert (x = fint f80 100) as ->.
  { apply (reads_fun (str "100") 100 x (Some 100)); [|lia|assumption]. rewrite (strtoll_numeral _ _ numeral_100). reflexivity. }
  assert (t = 87) as -> by (vm_compute in E; congruence).
  destruct (lin_to_exact 8 f64 (takum_linear8_to_float64 x86_64) 87 ltac:(constructor)) as (y & Ey & V).
  { right. split; [reflexivity|discriminate]. }
  { unfold is_intn. lia. }
  assert (B2SF y = SpecFloat.S754_finite false 6755399441055744 (-46)) as Sy.
  { assert (match takum_linear8_to_float64 x86_64 87 with Val z => B2SF z | UB => SpecFloat.S754_nan end = SpecFloat.S754_finite false 6755399441055744 (-46)) as K by (vm_compute; reflexivity).
    rewrite Ey in K. exact K. }
  destruct (value Linear 8 87) as [x|].
  - destruct V as (_ & Vx & _). rewrite <- Vx. f_equal. rewrite <- (SF2R_B2SF _ _ y), Sy. unfold SF2R, F2R, cond_Zopp, Defs.Fnum, Defs.Fexp, bpow.
    change (Z.pow_pos radix2 46) with 70368744177664. lra.
  - subst y. discriminate Sy.
Qed.

(** * Literals on their own *)
Lemma integer_line : forall ls w line s z, session lm strtold ls w -> words line [s] -> numeral s z -> - 2 ^ 63 <= z < 2 ^ 63 - 1 ->
  exists w' t, process_line lm strtold line w = Val w' /\
    output w' = output w ++ [Result (result_offset w) (PInt z); Prompt] /\
    registers w' = replaced (result_offset w) (mk_tvalue (takum_type_ w) t (Some z)) (registers w) /\
    rounds_faithfully (kind_of (takum_type_ w)) (bits_of (takum_type_ w)) (IZR z) t.
Proof.
  intros ls w line s z S W N R. destruct (literal_int lm strtold lm_ok (takum_type_ w) s z N R) as (t & L & F).
  destruct (expression_line lm strtold ls w line [s] lm_ok S W (Literal s) _ eq_refl (ev_literal _ _ _ _ _ _ L)) as (w' & p & E & Sh & O & Rg & _).
  exists w', t. split; [assumption|]. unfold shows in Sh. cbn [vint] in Sh. rewrite Sh in O. auto.
Qed.
Lemma large_line : forall ls w line s z, session lm strtold ls w -> words line [s] -> numeral s z -> 2 ^ 63 - 1 <= z ->
  exists w', process_line lm strtold line w = Val w' /\
    output w' = output w ++ [Result (result_offset w) PNaR; Prompt] /\
    registers w' = replaced (result_offset w) (mk_tvalue (takum_type_ w) (nar (bits_of (takum_type_ w))) None) (registers w).
Proof.
  intros ls w line s z S W N R. pose proof (literal_large lm strtold (takum_type_ w) s z N R) as L.
  destruct (expression_line lm strtold ls w line [s] lm_ok S W (Literal s) _ eq_refl (ev_literal _ _ _ _ _ _ L)) as (w' & p & E & Sh & O & Rg & _).
  exists w'. split; [assumption|]. split; [|assumption]. unfold shows in Sh. cbn [vint vtype vtakum] in Sh. destruct Sh as (f & x & Hf & Ex & Q).
  assert (f (nar (bits_of (takum_type_ w))) = Val B754_nan) as Ef.
  { exact (to_nar lm lm_ok _ _ _ f Hf). }
  rewrite Ef in Ex. injection Ex as <-. cbn in Q. rewrite Q in O. exact O.
Qed.
Lemma small_line : forall ls w line s z, session lm strtold ls w -> words line [s] -> numeral s z -> z < - 2 ^ 63 ->
  exists w', process_line lm strtold line w = Val w' /\ output w' = output w ++ [Result (result_offset w) (PInt (- 2 ^ 63)); Prompt].
Proof.
  intros ls w line s z S W N R. destruct (literal_small lm strtold lm_ok (takum_type_ w) s z N R) as (t & L & F).
  destruct (expression_line lm strtold ls w line [s] lm_ok S W (Literal s) _ eq_refl (ev_literal _ _ _ _ _ _ L)) as (w' & p & E & Sh & O & Rg & _).
  exists w'. split; [assumption|]. unfold shows in Sh. cbn [vint] in Sh. rewrite Sh in O. exact O.
Qed.
Lemma sessions_exist : exists w w', session lm strtold [str "1 2 +"] w /\
  printed_results (output w) <> [] /\ session lm strtold [str "takum8"] w' /\ takum_type_ w' = TAKUM8.
Proof.
  destruct sum_eval as (v & Ev).
  destruct (expression_line lm strtold [] (initial []) (str "1 2 +") [str "1"; str "2"; str "+"] lm_ok session_nil) with (e := Apply2 (str "+") (Literal (str "1")) (Literal (str "2"))) (v := v) as (w & p & E & _ & O & _).
  { apply words_compute. vm_compute. reflexivity. }
  { reflexivity. }
  { exact Ev. }
  destruct (linear_session (str "takum8") TAKUM8) as (w' & S' & T'); [in_list|apply words_compute; vm_compute; reflexivity|].
  exists w, w'. split; [exact (session_ext lm strtold [] _ _ _ session_nil E)|]. split; [rewrite O; discriminate|]. auto.
Qed.

(** * Memory exhaustion *)
Lemma one_token : forall w, exists nb, process_token lm strtold (str "1") w = stack_push nb w.
Proof.
  intros w. destruct (literal_int lm strtold lm_ok (takum_type_ w) _ _ numeral_1 ltac:(lia)) as (t & L & _).
  destruct (string_complete lm strtold _ _ _ L) as (E1 & E2 & nb & E3 & _). exists nb. unfold process_token. rewrite E1, E2, E3. reflexivity.
Qed.
Definition input_1 : bytes := str "1" ++ ["010"%char] ++ str "1" ++ ["010"%char].
Lemma exhausted : calculator lm strtold 256 input_1 [true; false] = UB.
Proof.
  unfold calculator. change (S (List.length input_1)) with 5%nat. cbn [main_loop].
  remember (getline 256 (mk_buffer None 0) input_1 (allocations (initial [true; false]))) as g1 eqn:E1. vm_compute in E1. rewrite E1. clear g1 E1.
  cbn [bind returned line_buffer left_allocations block unread].
  match goal with |- context [c_string ?c] => replace (c_string c) with (Val (str "1" ++ ["010"%char])) by (vm_compute; reflexivity) end.
  cbn [bind]. unfold process_line at 1. set (w0 := set_stack _ (set_allocations _ _)).
  replace (strtok_all [] (str "1" ++ ["010"%char])) with [str "1"] by (vm_compute; reflexivity).
  cbn [process_tokens]. destruct (one_token w0) as (nb & ->).
  assert (stack_push nb w0 = Val (true, print MemoryExhausted (set_stack (mk_stack None 0 1) (set_allocations [] w0)))) as -> by reflexivity.
  cbn [bind]. set (w1 := print Prompt _).
  match goal with |- context [getline 256 ?b ?i ?m] => remember (getline 256 b i m) as g2 eqn:E2 end. vm_compute in E2. rewrite E2. clear g2 E2.
  cbn [bind returned line_buffer left_allocations block unread].
  match goal with |- context [c_string ?c] => replace (c_string c) with (Val (str "1" ++ ["010"%char])) by (vm_compute; reflexivity) end.
  cbn [bind]. unfold process_line at 1. set (w2 := set_stack _ (set_allocations _ _)).
  replace (strtok_all [] (str "1" ++ ["010"%char])) with [str "1"] by (vm_compute; reflexivity).
  cbn [process_tokens]. destruct (one_token w2) as (nb2 & ->). reflexivity.
Qed.
Lemma not_exhausted : exists w, calculator lm strtold 256 input_1 [] = Val (Some w).
Proof.
  rewrite (calculator_spec 256 ltac:(lia) lm strtold input_1 lm_ok).
  assert (map up_to_nul (lines input_1) = [str "1" ++ ["010"%char]; str "1" ++ ["010"%char]]) as -> by (vm_compute; reflexivity).
  assert (forall ls w, session lm strtold ls w -> takum_type_ w = TAKUM64 -> exists w', process_line lm strtold (str "1" ++ ["010"%char]) w = Val w') as K.
  { intros ls w S T. apply (line_defined lm strtold ls w _ [str "1"] lm_ok S); [apply words_compute; vm_compute; reflexivity|].
    intros token [<-|[]]. right. rewrite T. split; [reflexivity|discriminate]. }
  destruct (K [] (initial []) session_nil eq_refl) as (w1 & E1). cbn [run]. rewrite E1. cbn [bind].
  destruct (K _ w1 (session_ext lm strtold [] _ _ _ session_nil E1)) as (w2 & E2).
  { rewrite (line_keeps_type lm strtold (initial []) (str "1" ++ ["010"%char]) [str "1"] w1); [reflexivity|apply words_compute; vm_compute; reflexivity| |assumption].
    intros t [<-|[]] I. repeat (destruct I as [I|I]; [discriminate|]). destruct I. }
  rewrite E2. cbn [bind]. eexists. reflexivity.
Qed.
End Witness.

Lemma small_refuted : ~ (forall lm strtold ls w line s z w', c99 lm -> session lm strtold ls w -> words line [s] -> numeral s z ->
      process_line lm strtold line w = Val w' ->
      output w' = output w ++ [Result (result_offset w) (PInt z); Prompt] \/
      output w' = output w ++ [Result (result_offset w) PNaR; Prompt]).
Proof.
  intros H. set (st := fun _ : bytes => (B754_nan : flt f80, false)).
  assert (words (str "-9223372036854775809") [str "-9223372036854775809"]) as W by (apply words_compute; vm_compute; reflexivity).
  destruct (small_line ideal st ideal_c99 [] (initial []) _ _ _ (session_nil ideal st) W numeral_low ltac:(lia)) as (w' & E & O).
  destruct (H ideal st [] (initial []) _ _ _ w' ideal_c99 (session_nil ideal st) W numeral_low E) as [Q|Q]; rewrite O in Q; discriminate.
Qed.
Lemma exhaustion_refuted : ~ (forall lm strtold bufsiz input m w, c99 lm -> (256 <= bufsiz)%nat ->
      calculator lm strtold bufsiz input [] = Val (Some w) -> calculator lm strtold bufsiz input m <> UB).
Proof.
  intros H. set (st := fun _ : bytes => (B754_nan : flt f80, false)). destruct (not_exhausted ideal st ideal_c99) as (w & E).
  exact (H ideal st 256%nat input_1 [true; false] w ideal_c99 (le_n _) E (exhausted ideal st ideal_c99)).
Qed.
