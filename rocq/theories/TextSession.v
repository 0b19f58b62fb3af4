(** Reading what the calculator printed, over a session. *)
From Coq Require Import ZArith List Bool Ascii String Reals Lia Lra.
From Flocq Require Import Core.Core IEEE754.BinarySingleNaN.
From Verif Require Import CModel FloatModel Libm LibmSpec LibmIdeal Spec SpecFacts CodeFacts ValueFacts WidthFacts WidthProps WidthConv WidthApi LogApi LinApi Conversion Wrappers WrapApi FloatFacts LinProps Pythagoras MiscProps WrapPi WrapExact Calculator CalcSpec CalcFacts CalcOps CalcStep CalcEval CalcRun CalcSession CalcLiteral CalcWitness CalcExact TextSpec TextFacts TextTrip TextLibrary.
Import ListNotations.
Local Open Scope Z_scope.

Section Session.
Variable lm : libm.
Variable strtold : bytes -> flt f80 * bool.
Hypothesis lm_ok : c99 lm.

(** registers hold results and literals *)
Lemma zero_number : number_of_calculator lm strtold TAKUM8 zero_value.
Proof. left. exists 0. split; [reflexivity|]. split; [reflexivity|]. split; [intros K; discriminate|]. split; [cbn; lia|]. apply value_0. Qed.
Lemma evaluated_number : forall T regs e v, (forall u, In u regs -> number_of_calculator lm strtold (vtype u) u) -> evaluates lm strtold T regs e v -> number_of_calculator lm strtold (vtype v) v.
Proof.
  intros T regs e v R [token u L|i u Hi N|name o a u r u' I Ha O Q|name o a b u u' r x I Ha Hb O Q].
  - right. exists token. replace (vtype u) with T by (symmetry; apply L). exact L.
  - apply R. eapply nth_error_In. exact N.
  - left. exists r. replace (vtype u') with T by (symmetry; apply Q). exact Q.
  - left. exists r. replace (vtype x) with T by (symmetry; apply Q). exact Q.
Qed.
Lemma registers_numbers : forall ls w, session lm strtold ls w -> forall v, In v (registers w) -> number_of_calculator lm strtold (vtype v) v /\ is_intn (bits_of (vtype v)) (vtakum v).
Proof.
  intros ls w H v I. split.
  - revert w H v I. induction ls as [|line ls IH] using rev_ind; intros w H v I.
    + injection H as <-. unfold registers in I. cbn [results initial] in I. apply in_map_iff in I as (nb & <- & I). apply repeat_spec in I. subst nb. exact zero_number.
    + destruct (session_snoc lm strtold _ _ _ H) as (w0 & H0 & E). specialize (IH w0 H0). pose proof (good_session lm strtold ls w0 lm_ok H0) as G.
      pose proof (line_spec lm strtold line w0 G) as L. cbv zeta in L. rewrite E in L. assert (Forall (consistent lm) (results w0)) as F by apply G.
      destruct L as [_ [(nb & p & A & _ & _ & R & _)|[_ (_ & R & _)]]]; unfold registers in I; rewrite R in I; [|apply IH; exact I].
      rewrite replaced_map in I. unfold replaced in I. apply in_app_or in I as [I|[<- |I]].
      * apply IH. unfold registers. rewrite <- (firstn_skipn (result_offset w0)). apply in_or_app. left. exact I.
      * destruct (proj1 (run_iff lm strtold (takum_type_ w0) (results w0) F _) nb A) as (_ & e & _ & Ev). eapply evaluated_number; [exact IH|exact Ev].
      * apply IH. unfold registers. rewrite <- (firstn_skipn (S (result_offset w0))). apply in_or_app. right. exact I.
  - pose proof (good_session lm strtold ls w lm_ok H) as (_ & _ & _ & F & _). unfold registers in I. apply in_map_iff in I as (nb & <- & I). rewrite Forall_forall in F. exact (consistent_int lm nb (type_ nb) (F nb I)).
Qed.
Lemma last_shows : forall ls w i p v, session lm strtold ls w -> last_printed i (printed_results (output w)) = Some p -> nth_error (registers w) i = Some v -> shows lm v p.
Proof.
  intros ls w i p v H L N. destruct (history_session lm strtold lm_ok ls w H) as (_ & _ & K).
  assert (i < 26)%nat as Hi. { assert (nth_error (registers w) i <> None) as Q by congruence. apply nth_error_Some in Q. unfold registers in Q. rewrite map_length in Q. pose proof (good_session lm strtold ls w lm_ok H) as (_ & G & _). lia. }
  destruct (K i Hi) as (v' & N' & Sh). rewrite L in Sh. rewrite N in N'. injection N' as <-. exact Sh.
Qed.
Lemma session_trip : reads_decimals strtold -> forall ls w i p v text line, session lm strtold ls w ->
  last_printed i (printed_results (output w)) = Some p -> nth_error (registers w) i = Some v -> vtype v = takum_type_ w -> bits_of (vtype v) <= 16 -> p <> PNaR ->
  printed_text p text -> words line [text] ->
  exists w' v', process_line lm strtold line w = Val w' /\ registers w' = replaced (result_offset w) v' (registers w) /\ vtype v' = vtype v /\ vtakum v' = vtakum v.
Proof.
  intros RD ls w i p v text line H L N ET Hb Np Pt W. pose proof (nth_error_In _ _ N) as I. destruct (registers_numbers ls w H v I) as [NC It]. pose proof (last_shows ls w i p v H L N) as Sh.
  destruct (text_trip lm strtold lm_ok RD (vtype v) v p text Hb eq_refl It NC Sh Np Pt) as (j & Lit). rewrite ET in Lit at 1.
  destruct (expression_line lm strtold ls w line [text] lm_ok H W (Literal text) _ eq_refl (ev_literal _ _ _ _ _ _ Lit)) as (w' & q & E & _ & _ & Rg & _).
  exists w'. eexists. split; [exact E|]. split; [exact Rg|]. cbn [vtype vtakum]. split; reflexivity.
Qed.
(** the printed text is close to the number *)
Lemma numeral_decimal : forall s z, numeral s z -> decimal_text s (IZR z).
Proof.
  intros s z [ds D|ds D].
  - replace (map decimal_digit ds) with ([] ++ map decimal_digit ds ++ [] ++ [])%list by (rewrite !app_nil_r; reflexivity).
    replace (IZR (decimal_value ds)) with (1 * (IZR (decimal_value (ds ++ [])) * powerRZ 10 (0 - Z.of_nat (List.length (@nil nat)))))%R by (rewrite app_nil_r; cbn [List.length Z.of_nat]; change (0 - 0) with 0; cbn [powerRZ]; ring).
    apply (decimal_number [] false ds [] [] [] 0); [constructor|apply D|constructor|constructor|]. rewrite app_nil_r. destruct D as [_ [-> |(d & ds' & -> & _)]]; discriminate.
  - replace ("-"%char :: map decimal_digit ds) with (["-"%char] ++ map decimal_digit ds ++ [] ++ [])%list by (rewrite !app_nil_r; reflexivity).
    replace (IZR (- decimal_value ds)) with (-1 * (IZR (decimal_value (ds ++ [])) * powerRZ 10 (0 - Z.of_nat (List.length (@nil nat)))))%R by (rewrite app_nil_r; cbn [List.length Z.of_nat]; change (0 - 0) with 0; cbn [powerRZ]; rewrite opp_IZR; ring).
    apply (decimal_number ["-"%char] true ds [] [] [] 0); [constructor|apply D|constructor|constructor|]. rewrite app_nil_r. destruct D as [_ [-> |(d & ds' & -> & _)]]; discriminate.
Qed.
Lemma session_accurate : forall ls w i y v x text, session lm strtold ls w -> last_printed i (printed_results (output w)) = Some (PFloat y) -> nth_error (registers w) i = Some v ->
  value (kind_of (vtype v)) (bits_of (vtype v)) (vtakum v) = Some x -> printed_text (PFloat y) text ->
  exists q, decimal_text text q /\ (Rabs (q - x) <= 501 / 100000000 * Rabs x)%R.
Proof.
  intros ls w i y v x text H L N V Pt. destruct (registers_numbers ls w H v (nth_error_In _ _ N)) as [_ It]. pose proof (last_shows ls w i _ v H L N) as Sh. unfold shows in Sh.
  destruct (vint v); [discriminate|]. destruct Sh as (f & x' & Hf & Ex & Ep). destruct (is_nan x'); [discriminate|]. injection Ep as <-. pose proof (std_bits (vtype v)) as Sw. pose proof (std_range _ Sw) as Hr.
  destruct (takum_cases _ _ It) as [E0 | [En | R]].
  - rewrite E0 in *. rewrite value_0 in V. injection V as <-. pose proof (to_zero80 lm _ _ f y lm_ok Hf Hr Ex) as Zx. exists 0%R. split; [|rewrite Rminus_diag_eq, Rabs_R0 by reflexivity; lra].
    cbn [printed_text] in Pt. destruct Pt as (unsigned & Et & [[_ ->]|(ds & X & (_ & _ & _ & e & m & Be & _) & _)]).
    + assert (digits [0%nat]) as D by (split; [constructor; [lia|constructor]|left; reflexivity]). apply (numeral_decimal text 0). rewrite Et. destruct (Bsign y); [apply (numeral_negative [0%nat] D)|apply (numeral_positive [0%nat] D)].
    + exfalso. rewrite Zx, Rabs_R0 in Be. pose proof (powerRZ_lt 10 e ltac:(lra)). lra.
  - rewrite En, value_nar in V by lia. discriminate.
  - destruct (percent_near lm lm_ok _ _ f _ x y text Sw Hf R V Ex Pt) as (q & Aq & _ & C). exists q. split; [|exact Aq]. destruct C as [(z & Nz & -> & _)|(_ & D & _)]; [apply numeral_decimal; exact Nz|exact D].
Qed.
(** an integer printed for a result is read as the same number, at all widths *)
Lemma integer_trip : forall ls w line before name w' i z text line2, session lm strtold ls w -> words line (before ++ [name]) -> In name (map fst names1 ++ map fst names2) ->
  process_line lm strtold line w = Val w' -> printed_results (output w') = printed_results (output w) ++ [(i, PInt z)] -> numeral text z -> words line2 [text] ->
  exists v w2, nth_error (registers w') i = Some v /\ process_line lm strtold line2 w' = Val w2 /\ registers w2 = replaced (result_offset w') v (registers w').
Proof.
  intros ls w line before name w' i z text line2 S W I E P N W2. pose proof (session_ext lm strtold ls line w w' S E) as S'.
  destruct (operator_line lm strtold lm_ok ls w line before name w' i (PInt z) S W I E P) as (v & Nv & Tv & K). destruct (proj1 (K z) eq_refl) as (Rz & V).
  destruct (registers_numbers _ w' S' v (nth_error_In _ _ Nv)) as [_ It]. rewrite Tv in It. pose proof (std_bits (takum_type_ w)) as Sw.
  assert (takum_type_ w' = takum_type_ w) as Tw.
  { destruct (last_result lm strtold lm_ok ls w line _ w' i (PInt z) S W E P) as (e & u & Q & Ev & _). destruct (expression_line lm strtold ls w line _ lm_ok S W e u Q Ev) as (w3 & p & E3 & _ & _ & _ & _ & T3). rewrite E in E3. injection E3 as <-. exact T3. }
  assert (- 2 ^ 63 <= z < 2 ^ 63 - 1) as Rz' by (destruct (kind_of (takum_type_ w)); lia).
  assert (isf (fint f80 z) (IZR z)) as Iz by (apply isf_int80; lia).
  destruct (from80 lm (kind_of (takum_type_ w)) (bits_of (takum_type_ w)) (from_extended_float lm (takum_type_ w)) (fint f80 z) lm_ok (from_float_ext lm _) (proj1 Iz)) as (t' & Et & F). rewrite (proj2 Iz) in F.
  assert (t' = vtakum v) as ->.
  { eapply (exact_k _ _ _ t' (vtakum v) Sw It); [apply F|exact V]. }
  assert (vint v = Some z) as Vz.
  { pose proof (last_result lm strtold lm_ok ls w line _ w' i (PInt z) S W E P) as (e & u & _ & _ & Sh & Nu). rewrite Nv in Nu. injection Nu as <-. unfold shows in Sh. destruct (vint v) as [y|]; [congruence|]. destruct Sh as (f & x & _ & _ & B). destruct (is_nan x); discriminate. }
  destruct (numeral_not_reserved text z N) as [N1 N2].
  assert (is_literal lm strtold (takum_type_ w') text v) as L.
  { rewrite Tw. split; [assumption|]. split; [assumption|]. split; [assumption|]. exists (from_extended_float lm (takum_type_ w)), (fint f80 z). split; [apply from_float_ext|]. split; [|exact Et]. rewrite Vz.
    apply reads_integer; [|lia]. rewrite (strtoll_numeral text z N). f_equal. unfold clamp64, INT64_MIN, INT64_MAX. lia. }
  destruct (expression_line lm strtold _ w' line2 [text] lm_ok S' W2 (Literal text) v eq_refl (ev_literal _ _ _ _ _ _ L)) as (w2 & q & E2 & _ & _ & Rg & _). exists v, w2. auto.
Qed.
End Session.
