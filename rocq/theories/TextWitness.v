(** Lines whose result is printed as a float, and texts of them. *)
From Coq Require Import ZArith List Bool Ascii String Reals Lia Lra.
From Flocq Require Import Core.Core IEEE754.BinarySingleNaN.
From Verif Require Import CModel FloatModel Libm LibmSpec LibmIdeal Spec SpecFacts CodeFacts ValueFacts WidthFacts WidthProps WidthConv WidthApi LogApi LinApi Conversion Wrappers WrapApi FloatFacts LinProps Pythagoras MiscProps RoundFacts NearFacts WrapExact Calculator CalcSpec CalcFacts CalcOps CalcStep CalcEval CalcRun CalcSession CalcLiteral CalcWitness CalcExact CalcLineSpec CalcLine TextSpec TextFacts TextTrip TextLibrary TextSession.
Import ListNotations.
Local Open Scope Z_scope.

Section Quotient.
Variable lm : libm.
Variable strtold : bytes -> flt f80 * bool.
Hypothesis lm_ok : c99 lm.

Lemma literal_at : forall T s z t, numeral s z -> - 2 ^ 63 <= z < 2 ^ 63 - 1 -> from_extended_float lm T (fint f80 z) = Val t -> is_literal lm strtold T s (mk_tvalue T t (Some z)).
Proof.
  intros T s z t H R E. destruct (numeral_not_reserved s z H) as [N1 N2]. split; [assumption|]. split; [assumption|]. split; [reflexivity|].
  exists (from_extended_float lm T), (fint f80 z). split; [apply from_float_ext|]. split; [|exact E]. cbn [vint].
  apply reads_integer; [|lia]. rewrite (strtoll_numeral s z H). f_equal. unfold clamp64, INT64_MIN, INT64_MAX. lia.
Qed.
Lemma quotient_line : forall name T sa a ta sb b tb r x line, In (name, T) types -> words name [name] -> kind_of T = Linear ->
  numeral sa a -> - 2 ^ 63 <= a < 2 ^ 63 - 1 -> from_extended_float lm T (fint f80 a) = Val ta -> numeral sb b -> - 2 ^ 63 <= b < 2 ^ 63 - 1 -> from_extended_float lm T (fint f80 b) = Val tb ->
  api_binary Linear lm n_division (width_of T) ta tb = Val r -> value Linear (bits_of T) r = Some x -> (- IZR (2 ^ 63) - 1 < x < IZR (2 ^ 63))%R -> (forall z, x <> IZR z) -> words line [sa; sb; str "/"] ->
  exists w p, session lm strtold [name; line] w /\ takum_type_ w = T /\ nth_error (registers w) 0 = Some (mk_tvalue T r None) /\ shows lm (mk_tvalue T r None) p /\ last_printed 0 (printed_results (output w)) = Some p.
Proof.
  intros name T sa a ta sb b tb r x line I Wn K Na Ra Fa Nb Rb Fb D V B Nz W.
  destruct (switch_type lm strtold (initial []) name name T Wn I) as (w & E & Q & Rg & Off & O). pose proof (session_ext lm strtold [] name (initial []) w (session_nil lm strtold) E) as S.
  assert (evaluates lm strtold (takum_type_ w) (registers w) (Apply2 (str "/") (Literal sa) (Literal sb)) (mk_tvalue T r None)) as Ev.
  { rewrite Q. eapply (ev_apply2 _ _ _ _ _ (Two n_division)); [in_list|apply ev_literal, (literal_at T sa a ta Na Ra Fa)|apply ev_literal, (literal_at T sb b tb Nb Rb Fb)| |].
    - eapply (op_two lm T n_division); [eexists; split; [apply cast_same|reflexivity]|eexists; split; [apply cast_same|reflexivity]|]. cbn [vtakum]. rewrite K. exact D.
    - split; [reflexivity|]. split; [reflexivity|]. rewrite K. split; [intros _; exists x; auto|]. cbn [vint known_integer]. intros z _ Hz. rewrite V in Hz. injection Hz as Hz. exact (Nz z Hz). }
  destruct (expression_line lm strtold _ w line _ lm_ok S W (Apply2 (str "/") (Literal sa) (Literal sb)) _ eq_refl Ev) as (w' & p & E' & Sh & O' & Rg' & _ & T').
  exists w', p. split; [exact (session_ext lm strtold [name] line w w' S E')|]. split; [congruence|]. split; [|split; [exact Sh|]].
  - rewrite Rg', Off. change (result_offset (initial [])) with 0%nat. apply replaced_nth. rewrite Rg. unfold registers. cbn [results initial]. rewrite map_length, repeat_length. lia.
  - rewrite O', O, Off. reflexivity.
Qed.
(** NaR cannot be entered *)
Lemma nar_line : forall ls w line, snd (strtold (str "NaR")) = false -> session lm strtold ls w -> words line [str "NaR"] ->
  exists w', process_line lm strtold line w = Val w' /\ output w' = output w ++ [InvalidToken (str "NaR"); Prompt] /\ registers w' = registers w.
Proof.
  intros ls w line Sn S W.
  assert (line_does lm strtold (takum_type_ w) (registers w) [str "NaR"] (Says [InvalidToken (str "NaR")] (takum_type_ w))) as D.
  { apply (does_end lm strtold _ _ [] [] (str "NaR") [] _ _); [exists []; split; [reflexivity|constructor]|]. apply ends_invalid.
    - intros H. assert (existsb (byte_eqb (str "NaR")) reserved = true) as Q by (apply existsb_exists; exists (str "NaR"); split; [assumption|apply byte_eqb_eq; reflexivity]). vm_compute in Q. discriminate Q.
    - intros (i & Hi & Q). discriminate Q.
    - vm_compute. reflexivity.
    - exact Sn. }
  destruct (does_behaves lm strtold lm_ok ls w line [str "NaR"] S W _ D) as (w' & E & O & R & _). exists w'. auto.
Qed.
End Quotient.

Lemma exact_value : forall n f t s m e, linear_to_float n f80 f -> is_intn n t -> match f t with Val z => B2SF z | UB => SpecFloat.S754_nan end = SpecFloat.S754_finite s m e -> value Linear n t = Some (F2R (Float radix2 (cond_Zopp s (Zpos m)) e)).
Proof.
  intros n f t s m e H It E. destruct (lin_to_exact n f80 f t H (or_introl eq_refl) It) as (y & Ey & V). rewrite Ey in E. destruct (value Linear n t) as [x|].
  - destruct V as (_ & Vx & _). rewrite <- Vx, <- (SF2R_B2SF _ _ y), E. reflexivity.
  - subst y. discriminate E.
Qed.
Lemma to_lin : forall lm k n F f, to_float lm k n F f -> k = Linear -> linear_to_float n F f.
Proof. intros lm k n F f [n' F' f' H|n' F' f' H] K; [discriminate|assumption]. Qed.
(** the float printed for a positive linear takum *)
Lemma shows_float : forall lm T r x p, c99 lm -> kind_of T = Linear -> is_intn (bits_of T) r -> value Linear (bits_of T) r = Some x -> (0 < x)%R -> shows lm (mk_tvalue T r None) p ->
  exists y, p = PFloat y /\ B2R y = x /\ Bsign y = false.
Proof.
  intros lm T r x p C K Ir V P Sh. unfold shows in Sh. cbn [vint vtype vtakum] in Sh. destruct Sh as (f & y & Hf & Ey & ->). rewrite K in Hf.
  assert (linear_to_float (bits_of T) f80 f) as Hl by exact (to_lin _ _ _ _ _ Hf eq_refl).
  destruct (lin_to_exact (bits_of T) f80 f r Hl (or_introl eq_refl) Ir) as (y' & Ey' & Vy). rewrite V in Vy. rewrite Ey in Ey'. injection Ey' as <-. destruct Vy as (F & B & _).
  exists y. split; [destruct y; try discriminate; reflexivity|]. split; [assumption|]. clear - F B P. destruct y as [s|s| |s m e Hb]; try discriminate; [simpl in B; lra|]. destruct s; [|reflexivity].
  exfalso. rewrite <- B in P. simpl in P. apply (Rlt_irrefl 0). eapply Rlt_trans; [exact P|]. apply F2R_lt_0. reflexivity.
Qed.
(** texts *)
Lemma text_of : forall (y : flt f80) x ds m text, B2R y = x -> Bsign y = false -> (1 <= x < 10)%R -> List.length ds = 6%nat -> all_digits ds -> hd 0%nat ds <> 0%nat -> decimal_value ds = m ->
  (Rabs (x - IZR m * / 100000) <= / 200000)%R -> text = point_text (firstn 1 ds) (strip (skipn 1 ds)) -> percent_Lg y text.
Proof.
  intros y x ds m text B S R L A H V D ->. exists (point_text (firstn 1 ds) (strip (skipn 1 ds))). rewrite S. split; [reflexivity|]. right. exists ds, 0. split.
  - split; [assumption|]. split; [assumption|]. split; [assumption|]. exists 0, m. rewrite B, Rabs_pos_eq by lra. change (powerRZ 10 0) with 1%R. change (powerRZ 10 (0 + 1)) with (10 * 1)%R.
    assert (powerRZ 10 (0 - 5) = / 100000)%R as -> by (simpl; lra). split; [lra|]. split; [lra|]. left. auto.
  - apply (text_whole ds 0). lia.
Qed.
Definition line16 : bytes := str "5 4 /".
Definition line32 : bytes := str "8388609 8388608 /".
Lemma digits_lead : forall d ds, all_digits (d :: ds) -> d <> 0%nat -> numeral (map decimal_digit (d :: ds)) (decimal_value (d :: ds)).
Proof. intros d ds A N. apply numeral_positive. split; [exact A|]. right. exists d, ds. auto. Qed.
Ltac some_digits := unfold all_digits; repeat (constructor; [lia|]); constructor.
Lemma value16 : value Linear 16 16896 = Some (5 / 4)%R.
Proof.
  rewrite (exact_value 16 (takum_linear16_to_extended_float x86_64) 16896 false 11529215046068469760 (-63)); [|constructor|unfold is_intn; lia|vm_compute; reflexivity].
  f_equal. unfold F2R, cond_Zopp, Defs.Fnum, Defs.Fexp, bpow. change (Z.pow_pos radix2 63) with 9223372036854775808. lra.
Qed.
Lemma value32 : value Linear 32 1073741840 = Some (1 + / 8388608)%R.
Proof.
  rewrite (exact_value 32 (takum_linear32_to_extended_float x86_64) 1073741840 false 9223373136366403584 (-63)); [|constructor|unfold is_intn; lia|vm_compute; reflexivity].
  f_equal. unfold F2R, cond_Zopp, Defs.Fnum, Defs.Fexp, bpow. change (Z.pow_pos radix2 63) with 9223372036854775808. lra.
Qed.
Lemma session16 : forall lm strtold, c99 lm -> exists w y, session lm strtold [str "takum_linear16"; line16] w /\ takum_type_ w = TAKUM_LINEAR16 /\
  nth_error (registers w) 0 = Some (mk_tvalue TAKUM_LINEAR16 16896 None) /\ last_printed 0 (printed_results (output w)) = Some (PFloat y) /\ percent_Lg y (str "1.25").
Proof.
  intros lm strtold C.
  assert (numeral (str "5") 5) as N5 by (apply (digits_lead 5 []); [some_digits|lia]). assert (numeral (str "4") 4) as N4 by (apply (digits_lead 4 []); [some_digits|lia]).
  destruct (quotient_line lm strtold C (str "takum_linear16") TAKUM_LINEAR16 (str "5") 5 19712 (str "4") 4 19456 16896 (5 / 4) line16) as (w & p & S & T & N & Sh & P).
  - in_list.
  - apply words_compute. vm_compute. reflexivity.
  - reflexivity.
  - assumption.
  - lia.
  - vm_compute. reflexivity.
  - assumption.
  - lia.
  - vm_compute. reflexivity.
  - vm_compute. reflexivity.
  - exact value16.
  - change (2 ^ 63) with 9223372036854775808. lra.
  - intros z E. assert (IZR 5 = IZR (4 * z)) as Q by (rewrite mult_IZR; lra). apply eq_IZR in Q. lia.
  - apply words_compute. vm_compute. reflexivity.
  - destruct (shows_float lm TAKUM_LINEAR16 16896 (5 / 4) p C eq_refl ltac:(unfold is_intn; cbn; lia) value16 ltac:(lra) Sh) as (y & -> & B & Sg).
    exists w, y. repeat (split; [assumption|]). apply (text_of y (5 / 4) [1; 2; 5; 0; 0; 0]%nat 125000); try assumption; try reflexivity; [lra|some_digits|discriminate|]. rewrite Rminus_diag_eq by lra. rewrite Rabs_R0. lra.
Qed.
Lemma session32 : forall lm strtold, c99 lm -> exists w y, session lm strtold [str "takum_linear32"; line32] w /\ takum_type_ w = TAKUM_LINEAR32 /\
  nth_error (registers w) 0 = Some (mk_tvalue TAKUM_LINEAR32 1073741840 None) /\ last_printed 0 (printed_results (output w)) = Some (PFloat y) /\ percent_Lg y (str "1").
Proof.
  intros lm strtold C.
  assert (numeral (str "8388609") 8388609) as N5 by (apply (digits_lead 8 [3; 8; 8; 6; 0; 9]%nat); [some_digits|lia]). assert (numeral (str "8388608") 8388608) as N4 by (apply (digits_lead 8 [3; 8; 8; 6; 0; 8]%nat); [some_digits|lia]).
  destruct (quotient_line lm strtold C (str "takum_linear32") TAKUM_LINEAR32 (str "8388609") 8388609 1677721601 (str "8388608") 8388608 1677721600 1073741840 (1 + / 8388608) line32) as (w & p & S & T & N & Sh & P).
  - in_list.
  - apply words_compute. vm_compute. reflexivity.
  - reflexivity.
  - assumption.
  - lia.
  - vm_compute. reflexivity.
  - assumption.
  - lia.
  - vm_compute. reflexivity.
  - vm_compute. reflexivity.
  - exact value32.
  - change (2 ^ 63) with 9223372036854775808. lra.
  - intros z E. assert (IZR 8388609 = IZR (8388608 * z)) as Q by (rewrite mult_IZR; lra). apply eq_IZR in Q. lia.
  - apply words_compute. vm_compute. reflexivity.
  - destruct (shows_float lm TAKUM_LINEAR32 1073741840 (1 + / 8388608) p C eq_refl ltac:(unfold is_intn; cbn; lia) value32 ltac:(lra) Sh) as (y & -> & B & Sg).
    exists w, y. repeat (split; [assumption|]). apply (text_of y (1 + / 8388608) [1; 0; 0; 0; 0; 0]%nat 100000); try assumption; try reflexivity; [lra|some_digits|discriminate|]. rewrite Rabs_pos_eq; lra.
Qed.
Lemma trip_refuted : ~ (forall lm strtold ls w i p v text line, c99 lm -> reads_decimals strtold -> session lm strtold ls w ->
  last_printed i (printed_results (output w)) = Some p -> nth_error (registers w) i = Some v -> vtype v = takum_type_ w -> p <> PNaR ->
  printed_text p text -> words line [text] ->
  exists w' v', process_line lm strtold line w = Val w' /\ registers w' = replaced (result_offset w) v' (registers w) /\ vtype v' = vtype v /\ vtakum v' = vtakum v).
Proof.
  intros H. destruct (session32 ideal strtold_ideal ideal_c99) as (w & y & S & T & N & L & P). assert (words (str "1") [str "1"]) as W by (apply words_compute; vm_compute; reflexivity).
  destruct (H ideal strtold_ideal _ w 0%nat (PFloat y) _ (str "1") (str "1") ideal_c99 strtold_ideal_ok S L N (eq_sym T) ltac:(discriminate) P W) as (w' & v' & E & Rg & _ & Ev).
  assert (evaluates ideal strtold_ideal (takum_type_ w) (registers w) (Literal (str "1")) (mk_tvalue TAKUM_LINEAR32 (2 ^ 30) (Some 1))) as Ex.
  { apply ev_literal. rewrite T. apply (literal_at ideal strtold_ideal TAKUM_LINEAR32 (str "1") 1 (2 ^ 30) numeral_1 ltac:(lia)). vm_compute. reflexivity. }
  destruct (expression_line ideal strtold_ideal _ w (str "1") _ ideal_c99 S W (Literal (str "1")) _ eq_refl Ex) as (w2 & q & E2 & _ & _ & Rg2 & _). rewrite E in E2. injection E2 as <-. pose proof (offset_ok ideal strtold_ideal ideal_c99 _ w S) as Of.
  pose proof (replaced_nth _ (result_offset w) v' (registers w) Of) as R1. rewrite <- Rg, Rg2, replaced_nth in R1 by exact Of. injection R1 as <-. cbn [vtakum] in Ev. discriminate Ev.
Qed.
(** an integer quotient *)
Lemma value21 : value Linear 32 1660944384 = Some (IZR 2097152).
Proof.
  rewrite (exact_value 32 (takum_linear32_to_extended_float x86_64) 1660944384 false 9223372036854775808 (-42)); [|constructor|unfold is_intn; lia|vm_compute; reflexivity].
  f_equal. unfold F2R, cond_Zopp, Defs.Fnum, Defs.Fexp, bpow. change (Z.pow_pos radix2 42) with 4398046511104. lra.
Qed.
Lemma integer_quotient : forall lm strtold, c99 lm -> exists w w', session lm strtold [str "takum_linear32"] w /\
  words (str "8388608 4 /") ([str "8388608"; str "4"] ++ [str "/"]) /\ In (str "/") (map fst names1 ++ map fst names2) /\
  process_line lm strtold (str "8388608 4 /") w = Val w' /\
  printed_results (output w') = printed_results (output w) ++ [(0%nat, PInt 2097152)] /\
  numeral (str "2097152") 2097152 /\ words (str "2097152") [str "2097152"].
Proof.
  intros lm strtold C. assert (words (str "takum_linear32") [str "takum_linear32"]) as Wn by (apply words_compute; vm_compute; reflexivity).
  destruct (switch_type lm strtold (initial []) (str "takum_linear32") (str "takum_linear32") TAKUM_LINEAR32 Wn) as (w & E & Q & Rg & Off & O); [in_list|].
  pose proof (session_ext lm strtold [] _ (initial []) w (session_nil lm strtold) E) as S.
  assert (words (str "8388608 4 /") ([str "8388608"; str "4"] ++ [str "/"])) as W by (apply words_compute; vm_compute; reflexivity).
  assert (numeral (str "8388608") 8388608) as N8 by (apply (digits_lead 8 [3; 8; 8; 6; 0; 8]%nat); [some_digits|lia]). assert (numeral (str "4") 4) as N4 by (apply (digits_lead 4 []); [some_digits|lia]).
  assert (evaluates lm strtold (takum_type_ w) (registers w) (Apply2 (str "/") (Literal (str "8388608")) (Literal (str "4"))) (mk_tvalue TAKUM_LINEAR32 1660944384 (Some 2097152))) as Ev.
  { rewrite Q. eapply (ev_apply2 _ _ _ _ _ (Two n_division)); [in_list|apply ev_literal, (literal_at lm strtold TAKUM_LINEAR32 _ 8388608 1677721600 N8 ltac:(lia)); vm_compute; reflexivity|apply ev_literal, (literal_at lm strtold TAKUM_LINEAR32 _ 4 1275068416 N4 ltac:(lia)); vm_compute; reflexivity| |].
    - eapply (op_two lm TAKUM_LINEAR32 n_division); [eexists; split; [apply cast_same|reflexivity]|eexists; split; [apply cast_same|reflexivity]|]. cbn [vtakum]. instantiate (1 := 1660944384). vm_compute. reflexivity.
    - split; [reflexivity|]. split; [reflexivity|]. split; [intros _; exists (IZR 2097152); split; [exact value21|change (2 ^ 63) with 9223372036854775808; lra]|]. split; [cbn; lia|exact value21]. }
  destruct (expression_line lm strtold _ w _ _ C S W (Apply2 (str "/") (Literal (str "8388608")) (Literal (str "4"))) _ eq_refl Ev) as (w' & p & E' & Sh & O' & _).
  exists w, w'. split; [exact S|]. split; [exact W|]. split; [apply in_or_app; right; in_list|]. split; [exact E'|]. cbn in Sh. subst p.
  split; [rewrite O', printed_app, printed_single, Off; reflexivity|]. split; [apply (digits_lead 2 [0; 9; 7; 1; 5; 2]%nat); [some_digits|lia]|]. apply words_compute. vm_compute. reflexivity.
Qed.
