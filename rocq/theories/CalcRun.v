(** Lines and sessions of the calculator. *)
From Coq Require Import ZArith List Bool Ascii String Reals Lia Lra.
From Flocq Require Import Core.Core IEEE754.BinarySingleNaN.
From Verif Require Import CModel FloatModel Libm Spec WidthConv WidthApi LogApi LinApi Conversion Arith Wrappers WrapApi WidthFacts FloatFacts LibmSpec LogConv KindConv WrapTotal Calculator CalcSpec CalcFacts CalcOps CalcStep CalcEval.
Import ListNotations.
Local Open Scope Z_scope.

Ltac cast_conv :=
  first [ apply cast_same | apply cast_wider; [reflexivity|constructor] | apply cast_narrower; [reflexivity|constructor]
        | apply cast_to_linear; [reflexivity|reflexivity|constructor] | apply cast_to_log; [reflexivity|reflexivity|constructor] ].

(** * Words *)
Lemma is_delimiter_spec : forall c, is_delimiter c = true <-> separator c.
Proof.
  intros c. unfold is_delimiter, separator. destruct (ascii_dec c " "); [tauto|]. destruct (ascii_dec c "010"); [tauto|]. split; [discriminate|tauto].
Qed.
Lemma delimiter_false : forall c, ~ separator c -> is_delimiter c = false.
Proof. intros c H. rewrite <- not_true_iff_false, is_delimiter_spec. exact H. Qed.
Lemma strtok_run : forall w run s, Forall (fun c => ~ separator c) w -> strtok_all run (w ++ s) = strtok_all (run ++ w) s.
Proof.
  induction w as [|c w IH]; intros run s H; [rewrite app_nil_r; reflexivity|]. inversion H; subst. cbn [app strtok_all]. rewrite delimiter_false by assumption.
  rewrite IH by assumption. rewrite <- app_assoc. reflexivity.
Qed.
Lemma strtok_words : forall s ws, words s ws -> strtok_all [] s = ws.
Proof.
  induction 1 as [|c s ws D _ IH|w N F|w c s ws N F D _ IH].
  - reflexivity.
  - cbn [strtok_all]. apply is_delimiter_spec in D. rewrite D. exact IH.
  - rewrite <- (app_nil_r w) at 1. rewrite strtok_run by assumption. cbn [app strtok_all]. destruct w; [contradiction|reflexivity].
  - rewrite strtok_run by assumption. cbn [app strtok_all]. apply is_delimiter_spec in D. rewrite D, IH. destruct w; [contradiction|reflexivity].
Qed.
Lemma words_strtok : forall s run, Forall (fun c => ~ separator c) run -> words (run ++ s) (strtok_all run s).
Proof.
  induction s as [|c s IH]; intros run F.
  - rewrite app_nil_r. cbn [strtok_all]. destruct run; [apply words_none|]. apply words_last; [discriminate|assumption].
  - cbn [strtok_all]. destruct (is_delimiter c) eqn:D.
    + apply is_delimiter_spec in D. specialize (IH [] (Forall_nil _)). destruct run as [|r run]; [apply words_separator; assumption|].
      apply words_word; [discriminate|assumption..].
    + assert (~ separator c) as N by (rewrite <- is_delimiter_spec; congruence).
      replace (run ++ c :: s) with ((run ++ [c]) ++ s) by (rewrite <- app_assoc; reflexivity). apply IH.
      apply Forall_app. split; [assumption|]. constructor; [assumption|constructor].
Qed.
Lemma words_iff : forall s ws, words s ws <-> strtok_all [] s = ws.
Proof. intros s ws. split; [apply strtok_words|]. intros <-. apply (words_strtok s []). constructor. Qed.

Section Run.
Variable lm : libm.
Variable strtold : bytes -> flt f80 * bool.

(** * Printing *)
Lemma print_spec : forall nb, consistent lm nb -> exists p, number_print lm nb = Val p /\ shows lm (abstract nb) p.
Proof.
  intros nb C. unfold number_print, shows, abstract. cbn [vint vtype vtakum].
  change (2 ^ 63 - 1) with INT64_MAX. destruct (integer_value nb =? INT64_MAX); cbn [negb]; [|eexists; split; reflexivity].
  pose proof (consistent_int lm nb (type_ nb) C) as It.
  assert (exists f, to_float lm (kind_of (type_ nb)) (bits_of (type_ nb)) f80 f /\
    (match type_ nb with
      | TAKUM8 => takum8_to_extended_float x86_64 lm (takum8_value nb)
      | TAKUM16 => takum16_to_extended_float x86_64 lm (takum16_value nb)
      | TAKUM32 => takum32_to_extended_float x86_64 lm (takum32_value nb)
      | TAKUM64 => takum64_to_extended_float x86_64 lm (takum64_value nb)
      | TAKUM_LINEAR8 => takum_linear8_to_extended_float x86_64 (takum_linear8_value nb)
      | TAKUM_LINEAR16 => takum_linear16_to_extended_float x86_64 (takum_linear16_value nb)
      | TAKUM_LINEAR32 => takum_linear32_to_extended_float x86_64 (takum_linear32_value nb)
      | TAKUM_LINEAR64 => takum_linear64_to_extended_float x86_64 (takum_linear64_value nb)
      end) = f (takum_value (type_ nb) nb)) as (f & Hf & ->).
  { destruct (type_ nb); eexists; (split; [first [apply to_float_log; constructor|apply to_float_lin; constructor]|reflexivity]). }
  destruct (to_total lm _ _ _ f _ Hf It) as (x & E). rewrite E. cbn [bind]. unfold fisnan. change (ld x86_64) with f80. destruct (is_nan x) eqn:Nx.
  - exists PNaR. split; [reflexivity|]. exists f, x. rewrite Nx. auto.
  - exists (PFloat x). split; [reflexivity|]. exists f, x. rewrite Nx. auto.
Qed.

(** * Lines *)
Definition good (w : world) : Prop :=
  allocations w = [] /\ List.length (results w) = 26%nat /\ (result_offset w < 26)%nat /\ Forall (consistent lm) (results w) /\ stack_ok (stack_ w).

Lemma tokens_refine : forall tokens w l, tokens <> [] -> holds (stack_ w) l -> allocations w = [] ->
  match asteps lm strtold (takum_type_ w) (results w) tokens l with
  | UB => process_tokens lm strtold tokens w = UB
  | Val (Continue l') => exists w', process_tokens lm strtold tokens w = end_of_line lm w' /\ holds (stack_ w') l' /\ same w w'
  | Val (Stop l') => exists w', process_tokens lm strtold tokens w = Val w' /\ holds (stack_ w') l' /\ stopped w w'
  end.
Proof.
  induction tokens as [|t tokens IH]; intros w l N H Al; [contradiction|]. cbn [asteps process_tokens].
  pose proof (token_refines lm strtold t w l H Al) as R. unfold refines in R.
  destruct (astep lm strtold (takum_type_ w) (results w) t l) as [[l'|l']|]; cbn [bind].
  - destruct R as (w1 & E & H1 & S). rewrite E. cbn [bind]. destruct tokens as [|t' tokens].
    + cbn [asteps]. exists w1. auto.
    + specialize (IH w1 l' ltac:(discriminate) H1). pose proof S as (S1 & S2 & S3 & S4 & S5). rewrite S1, S2, S5 in IH. specialize (IH Al).
      destruct (asteps lm strtold (takum_type_ w) (results w) (t' :: tokens) l') as [[l2|l2]|]; [..|assumption].
      * destruct IH as (w2 & E2 & H2 & S'). exists w2. split; [assumption|]. split; [assumption|]. eapply same_trans; eassumption.
      * destruct IH as (w2 & E2 & H2 & T1 & T2 & T3 & T4). exists w2. split; [assumption|]. split; [assumption|].
        rewrite S4 in T4. split; [congruence|]. split; [congruence|]. split; [congruence|]. assumption.
  - destruct R as (w1 & E & H1 & S). rewrite E. cbn [bind]. exists w1. auto.
  - rewrite R. reflexivity.
Qed.

(** a line that prints a result *)
Definition gives (w w' : world) (nb : number) (p : printed) : Prop :=
  output w' = output w ++ [Result (result_offset w) p; Prompt] /\
  results w' = replaced (result_offset w) nb (results w) /\
  result_offset w' = ((result_offset w + 1) mod 26)%nat /\ takum_type_ w' = takum_type_ w.
(** a line that prints none *)
Definition quiet (w w' : world) : Prop :=
  (exists es, output w' = output w ++ es ++ [Prompt] /\ printed_results es = []) /\
  results w' = results w /\ result_offset w' = result_offset w.

Lemma reset_holds : forall s, stack_ok s -> holds (mk_stack (data s) 0 (capacity s)) [].
Proof.
  intros s OK. split; [exact OK|]. split; [reflexivity|]. split; [cbn; lia|]. intros b _. reflexivity.
Qed.
Lemma replaced_length : forall {A} i (v : A) l, (i < List.length l)%nat -> List.length (replaced i v l) = List.length l.
Proof. intros A i v l H. unfold replaced. rewrite app_length, firstn_length, length_cons, skipn_length. lia. Qed.
Lemma forall_skipn : forall {A} (P : A -> Prop) k l, Forall P l -> Forall P (skipn k l).
Proof. intros A P k l F. rewrite <- (firstn_skipn k l), Forall_app in F. apply F. Qed.
Lemma forall_firstn : forall {A} (P : A -> Prop) k l, Forall P l -> Forall P (firstn k l).
Proof. intros A P k l F. rewrite <- (firstn_skipn k l), Forall_app in F. apply F. Qed.
Lemma replaced_forall : forall {A} (P : A -> Prop) i v l, Forall P l -> P v -> Forall P (replaced i v l).
Proof.
  intros A P i v l F Pv. unfold replaced. apply Forall_app. split; [apply forall_firstn, F|]. constructor; [assumption|apply forall_skipn, F].
Qed.
Lemma replaced_map : forall {A B} (f : A -> B) i v l, map f (replaced i v l) = replaced i (f v) (map f l).
Proof. intros A B f i v l. unfold replaced. rewrite map_app, firstn_map. cbn [map]. rewrite skipn_map. reflexivity. Qed.

Lemma line_spec : forall line w, good w ->
  let T := takum_type_ w in let tokens := strtok_all [] line in
  match process_line lm strtold line w with
  | UB => (forall nb, asteps lm strtold T (results w) tokens [] <> Val (Continue [nb])) /\ ~ Forall (safe T) tokens
  | Val w' => good w' /\
     ((exists nb p, asteps lm strtold T (results w) tokens [] = Val (Continue [nb]) /\ shows lm (abstract nb) p /\ gives w w' nb p) \/
      ((forall nb, asteps lm strtold T (results w) tokens [] <> Val (Continue [nb])) /\ quiet w w'))
  end.
Proof.
  intros line w (G1 & G2 & G3 & G4 & G5) T tokens. unfold process_line. fold tokens.
  set (w0 := set_stack _ w). assert (holds (stack_ w0) []) as H0 by (apply reset_holds, G5).
  assert (allocations w0 = []) as A0 by exact G1.
  assert (tokens = [] \/ tokens <> []) as [EN|N] by (destruct tokens; [left; reflexivity|right; discriminate]).
  { rewrite EN. cbn [process_tokens bind asteps]. split.
    - repeat (split; [assumption|]). exact (proj1 H0).
    - right. split; [intros nb; discriminate|]. split; [|split; reflexivity]. exists []. split; reflexivity. }
  pose proof (tokens_refine tokens w0 [] N H0 A0) as R. change (takum_type_ w0) with T in R. change (results w0) with (results w) in R.
  pose proof (steps_good lm strtold T (results w) G4 tokens [] G2 (Forall_nil _)) as SG.
  destruct (asteps lm strtold T (results w) tokens []) as [[l|l]|] eqn:EA.
  - destruct R as (w1 & E & H1 & SM). rewrite E. pose proof SM as (S1 & S2 & S3 & S4 & S5).
    change (results w0) with (results w) in S2. change (result_offset w0) with (result_offset w) in S3. change (output w0) with (output w) in S4. change (takum_type_ w0) with (takum_type_ w) in S1.
    assert (good w1) as Gw1. { split; [congruence|]. split; [rewrite S2; assumption|]. split; [rewrite S3; assumption|]. split; [rewrite S2; assumption|]. apply H1. }
    unfold end_of_line. assert (size (stack_ w1) = List.length l) as Sz by apply H1. rewrite Sz.
    destruct l as [|nb [|nb' l]]; cbn [List.length Nat.eqb negb bind].
    + split; [exact Gw1|]. right. split; [intros nb; discriminate|]. split; [|split; assumption]. exists [NotOneNumber]. cbn [output print]. rewrite S4, <- app_assoc. split; reflexivity.
    + destruct (pop_holds w1 [] nb H1) as (w2 & E2 & H2 & S'). rewrite E2. cbn [bind]. pose proof S' as (S1' & S2' & S3' & S4' & S5').
      inversion SG as [|a b C _]; subst. destruct (print_spec nb C) as (p & Ep & Sp). rewrite Ep. cbn [bind].
      assert (result_offset (print (Result (result_offset w2) p) w2) = result_offset w) as Qo by (cbn; congruence).
      assert (results (print (Result (result_offset w2) p) w2) = results w) as Qr by (cbn; congruence).
      rewrite Qo, Qr, G2. destruct (Nat.ltb_spec (result_offset w) 26) as [L|L]; [|lia]. cbn [bind].
      assert (result_offset w2 = result_offset w) as Q1 by congruence. assert (results w2 = results w) as Q2 by congruence.
      split.
      * split; [cbn; congruence|]. cbn [results print set_offset store result_offset allocations]. rewrite Q1, Q2.
        change (firstn (result_offset w) (results w) ++ nb :: skipn (Datatypes.S (result_offset w)) (results w)) with (replaced (result_offset w) nb (results w)).
        rewrite replaced_length by lia. rewrite G2. split; [reflexivity|]. split; [apply Nat.mod_upper_bound; lia|]. split; [apply replaced_forall; assumption|]. apply H2.
      * left. exists nb, p. split; [reflexivity|]. split; [assumption|]. split; [|split; [|split]].
        -- cbn [output print set_offset store]. rewrite S4', S4, Q1, <- app_assoc. reflexivity.
        -- cbn [results print set_offset store]. rewrite Q2. reflexivity.
        -- cbn [result_offset print set_offset store results]. rewrite Q1, Q2.
           change (firstn (result_offset w) (results w) ++ nb :: skipn (Datatypes.S (result_offset w)) (results w)) with (replaced (result_offset w) nb (results w)).
           rewrite replaced_length by lia. rewrite G2. f_equal. lia.
        -- cbn [takum_type_ print set_offset store]. congruence.
    + split; [exact Gw1|]. right. split; [intros nb0; discriminate|]. split; [|split; assumption]. exists [NotOneNumber]. cbn [output print]. rewrite S4, <- app_assoc. split; reflexivity.
  - destruct R as (w1 & E & H1 & S1 & S2 & S3 & S4). rewrite E. cbn [bind].
    change (results w0) with (results w) in S1. change (result_offset w0) with (result_offset w) in S2. change (output w0) with (output w) in S4. split.
    + split; [cbn; congruence|]. cbn [results print result_offset stack_]. rewrite S1, S2. repeat (split; [assumption|]). apply H1.
    + right. split; [intros nb; discriminate|]. split; [|split; assumption]. destruct S4 as [Q|(e & Q & NR)].
      * exists []. cbn [output print]. rewrite Q. split; reflexivity.
      * exists [e]. cbn [output print]. rewrite Q, <- app_assoc. split; [reflexivity|]. destruct e; try reflexivity. exfalso. eapply NR. reflexivity.
  - rewrite R. cbn [bind]. split; [intros nb; discriminate|assumption].
Qed.

(** * Sessions *)
Lemma run_app : forall l1 l2 w, run lm strtold (l1 ++ l2) w = let! w' := run lm strtold l1 w in run lm strtold l2 w'.
Proof.
  induction l1 as [|l l1 IH]; intros l2 w; [reflexivity|]. cbn [app run]. destruct (process_line lm strtold l w) as [w'|]; [apply IH|reflexivity].
Qed.
Lemma good_line : forall line w w', good w -> process_line lm strtold line w = Val w' -> good w'.
Proof. intros line w w' G E. pose proof (line_spec line w G) as L. cbv zeta in L. rewrite E in L. apply L. Qed.
Lemma good_run : forall ls w w', good w -> run lm strtold ls w = Val w' -> good w'.
Proof.
  induction ls as [|l ls IH]; intros w w' G E; cbn [run] in E; [congruence|].
  destruct (process_line lm strtold l w) as [w1|] eqn:E1; [|discriminate]. cbn [bind] in E. eapply IH; [|eassumption]. eapply good_line; eassumption.
Qed.
Lemma zero_cast : c99 lm -> consistent lm zero_number.
Proof.
  intros C T. split.
  - destruct T; cbn; unfold is_intn; lia.
  - assert (forall m g, log_to_linear lm 8 m g -> g 0 = Val 0) as L.
    { intros m g H. destruct (log_to_linear_form lm 8 m g H) as (h & f & Hh & Hf & ->). rewrite (log_to_0 lm 8 _ h C Hh). cbn [bind]. destruct Hf; reflexivity. }
    destruct T; eexists; (split; [cast_conv|]); first [reflexivity|apply (L 8); constructor|apply (L 16); constructor|apply (L 32); constructor|apply (L 64); constructor].
Qed.
Lemma good_initial : c99 lm -> good (initial []).
Proof.
  intros C. split; [reflexivity|]. split; [reflexivity|]. split; [cbn; lia|]. split; [|reflexivity].
  apply Forall_forall. intros x Hx. apply repeat_spec in Hx. subst x. apply zero_cast, C.
Qed.
Lemma good_session : forall ls w, c99 lm -> session lm strtold ls w -> good w.
Proof. intros ls w C H. eapply good_run; [apply good_initial, C|exact H]. Qed.

(** ** Lines of a session *)
Section Line.
Variables (ls : list bytes) (w : world) (line : bytes) (ws : list bytes).
Hypothesis lm_ok : c99 lm.
Hypothesis in_session : session lm strtold ls w.
Hypothesis line_words : words line ws.

Lemma w_good : good w. Proof. eapply good_session; eassumption. Qed.
Lemma ws_eq : strtok_all [] line = ws. Proof. apply words_iff, line_words. Qed.

Lemma expression_line : forall e v, ws = postfix e -> evaluates lm strtold (takum_type_ w) (registers w) e v ->
  exists w' p, process_line lm strtold line w = Val w' /\ shows lm v p /\
    output w' = output w ++ [Result (result_offset w) p; Prompt] /\
    registers w' = replaced (result_offset w) v (registers w) /\
    result_offset w' = ((result_offset w + 1) mod 26)%nat /\ takum_type_ w' = takum_type_ w.
Proof.
  intros e v Q H. pose proof w_good as G. pose proof (line_spec line w G) as L. cbv zeta in L. rewrite ws_eq in L.
  assert (Forall (consistent lm) (results w)) as F by apply G.
  destruct (proj2 (run_iff lm strtold (takum_type_ w) (results w) F ws) e v Q H) as (nb & E & A).
  destruct (process_line lm strtold line w) as [w'|].
  - destruct L as [_ [(nb' & p & E' & S & O & R & Off & Ty)|[N _]]]; [|exfalso; exact (N nb E)].
    rewrite E in E'. injection E' as <-. exists w', p. rewrite A in S. split; [reflexivity|]. split; [assumption|]. split; [assumption|].
    split; [|auto]. unfold registers. rewrite R, replaced_map, A. reflexivity.
  - exfalso. apply (proj1 L nb E).
Qed.
Lemma printed_app : forall a b, printed_results (a ++ b) = printed_results a ++ printed_results b.
Proof. induction a as [|e a IH]; intros b; [reflexivity|]. cbn [app printed_results]. rewrite IH. destruct e; reflexivity. Qed.
Lemma other_line : forall w', process_line lm strtold line w = Val w' ->
  (exists e v, ws = postfix e /\ evaluates lm strtold (takum_type_ w) (registers w) e v) \/
  (registers w' = registers w /\ result_offset w' = result_offset w /\ printed_results (output w') = printed_results (output w)).
Proof.
  intros w' E. pose proof w_good as G. pose proof (line_spec line w G) as L. cbv zeta in L. rewrite ws_eq, E in L.
  assert (Forall (consistent lm) (results w)) as F by apply G.
  destruct L as [_ [(nb & p & E' & _)|[_ ((es & O & P) & R & Off)]]].
  - left. destruct (proj1 (run_iff lm strtold (takum_type_ w) (results w) F ws) nb E') as (_ & e & Q & V). exists e, (abstract nb). auto.
  - right. split; [unfold registers; rewrite R; reflexivity|]. split; [assumption|].
    rewrite O, !printed_app, P. cbn. rewrite app_nil_r. reflexivity.
Qed.
Lemma unambiguous : forall e e' v v', postfix e = postfix e' ->
  evaluates lm strtold (takum_type_ w) (registers w) e v -> evaluates lm strtold (takum_type_ w) (registers w) e' v' -> v = v'.
Proof.
  intros e e' v v' Q H H'. pose proof w_good as G. assert (Forall (consistent lm) (results w)) as F by apply G.
  destruct (evaluates_run lm strtold _ _ F e v H) as (nb & A & _ & R). destruct (evaluates_run lm strtold _ _ F e' v' H') as (nb' & A' & _ & R').
  specialize (R []). specialize (R' []). rewrite Q in R. congruence.
Qed.
Lemma line_defined : (forall token, In token ws -> safe (takum_type_ w) token) -> exists w', process_line lm strtold line w = Val w'.
Proof.
  intros H. pose proof (line_spec line w w_good) as L. cbv zeta in L. rewrite ws_eq in L.
  destruct (process_line lm strtold line w) as [w'|]; [exists w'; reflexivity|]. exfalso. apply (proj2 L). apply Forall_forall. exact H.
Qed.
End Line.
End Run.
