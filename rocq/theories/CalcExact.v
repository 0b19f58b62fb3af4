(** Printed integers of the calculator and the takums they stand for (C69, C70). *)
From Coq Require Import ZArith List Bool Ascii String Reals Lia Lra.
From Flocq Require Import IEEE754.BinarySingleNaN.
From Verif Require Import CModel FloatModel Libm LibmSpec LibmIdeal Spec Conversion Wrappers WrapApi Calculator CalcSpec CalcFacts CalcEval CalcRun CalcSession CalcInput CalcLiteral CalcWitness.
Import ListNotations.
Local Open Scope Z_scope.

Lemma printed_single : forall i p, printed_results [Result i p; Prompt] = [(i, p)].
Proof. reflexivity. Qed.
Lemma letter_not_operator : forall i, (i < 26)%nat -> ~ In (letter i) (map fst names1 ++ map fst names2).
Proof.
  intros i Hi H. do 26 (destruct i as [|i]; [repeat (destruct H as [H|H]; [discriminate H|]); destruct H|]). lia.
Qed.
Section Exact.
Variable lm : libm.
Variable strtold : bytes -> flt f80 * bool.
Hypothesis lm_ok : c99 lm.

Lemma operator_applied : forall T regs e v pre name, evaluates lm strtold T regs e v -> postfix e = pre ++ [name] ->
  In name (map fst names1 ++ map fst names2) ->
  (exists name a, e = Apply1 name a) \/ (exists name a b, e = Apply2 name a b).
Proof.
  intros T regs e v pre name Ev Q I. destruct Ev as [token v L|i v Hi E|nm o a v r x In1|nm o a b u v r x In2].
  - exfalso. destruct L as (NR & _). apply NR. cbn [postfix] in Q. change [token] with ([] ++ [token]) in Q. apply app_inj_tail in Q. destruct Q as [_ ->].
    right. rewrite app_assoc. apply in_or_app. left. exact I.
  - exfalso. cbn [postfix] in Q. change [letter i] with ([] ++ [letter i]) in Q. apply app_inj_tail in Q. destruct Q as [_ Q]. rewrite <- Q in I.
    exact (letter_not_operator i Hi I).
  - left. eauto.
  - right. eauto.
Qed.
Lemma offset_ok : forall ls w, session lm strtold ls w -> (result_offset w < List.length (registers w))%nat.
Proof.
  intros ls w S. destruct (history_session lm strtold lm_ok ls w S) as (_ & O & R).
  assert (result_offset w < 26)%nat as L by (rewrite O; apply Nat.mod_upper_bound; lia).
  destruct (R _ L) as (v & E & _). apply nth_error_Some. rewrite E. discriminate.
Qed.
Lemma replaced_nth : forall A i (v : A) l, (i < List.length l)%nat -> nth_error (replaced i v l) i = Some v.
Proof.
  intros A i v l H. unfold replaced. rewrite nth_error_app2; rewrite firstn_length_le by lia; [|lia]. rewrite Nat.sub_diag. reflexivity.
Qed.
Lemma last_result : forall ls w line ws w' i p, session lm strtold ls w -> words line ws -> process_line lm strtold line w = Val w' ->
  printed_results (output w') = printed_results (output w) ++ [(i, p)] ->
  exists e v, ws = postfix e /\ evaluates lm strtold (takum_type_ w) (registers w) e v /\ shows lm v p /\
    nth_error (registers w') i = Some v.
Proof.
  intros ls w line ws w' i p S W E P.
  destruct (other_line lm strtold ls w line ws lm_ok S W w' E) as [(e & v & Q & Ev)|(_ & _ & P')].
  - exists e, v. split; [assumption|]. split; [assumption|].
    destruct (expression_line lm strtold ls w line ws lm_ok S W e v Q Ev) as (w2 & q & E2 & Sh & O & Rg & _).
    rewrite E in E2. injection E2 as <-. rewrite O, printed_app, printed_single in P. apply app_inv_head in P. injection P as <- <-.
    split; [assumption|]. rewrite Rg. apply replaced_nth. eapply offset_ok; eassumption.
  - exfalso. rewrite P' in P. assert (List.length (printed_results (output w)) = List.length (printed_results (output w) ++ [(i, p)])) as L by (rewrite <- P; reflexivity).
    rewrite app_length in L. cbn in L. lia.
Qed.
Lemma operator_line : forall ls w line pre name w' i p, session lm strtold ls w -> words line (pre ++ [name]) ->
  In name (map fst names1 ++ map fst names2) -> process_line lm strtold line w = Val w' ->
  printed_results (output w') = printed_results (output w) ++ [(i, p)] ->
  exists v, nth_error (registers w') i = Some v /\ vtype v = takum_type_ w /\
    forall z, p = PInt z <->
      match kind_of (takum_type_ w) with Logarithmic => -1 <= z <= 1 | Linear => - 2 ^ 63 <= z < 2 ^ 63 - 1 end /\
      value (kind_of (takum_type_ w)) (bits_of (takum_type_ w)) (vtakum v) = Some (IZR z).
Proof.
  intros ls w line pre name w' i p S W I E P. destruct (last_result ls w line _ w' i p S W E P) as (e & v & Q & Ev & Sh & N).
  exists v. split; [assumption|]. pose proof (operator_applied _ _ _ _ pre name Ev (eq_sym Q) I) as A.
  assert (exists r, is_result (takum_type_ w) r v) as (r & R1 & R2 & _ & K).
  { destruct Ev as [| |nm o a u r x J Ha O R|nm o a b u u' r x J Ha Hb O R]; [..|exists r; assumption|exists r; assumption];
      destruct A as [(? & ? & ?)|(? & ? & ? & ?)]; discriminate. }
  split; [assumption|]. intros z. rewrite R2. split.
  - intros ->. unfold shows in Sh. destruct (vint v) as [y|]; [injection Sh as ->; exact K|].
    destruct Sh as (f & x & _ & _ & B). destruct (is_nan x); discriminate.
  - intros (Rz & V). unfold shows in Sh. destruct (vint v) as [y|].
    + destruct K as (Ry & Vy). rewrite V in Vy. injection Vy as Vy. apply eq_IZR in Vy. subst y. exact Sh.
    + exfalso. exact (K z Rz V).
Qed.
End Exact.

Lemma literal_line_refuted : ~ (forall lm strtold ls w line ws w' i z v, c99 lm -> session lm strtold ls w -> words line ws ->
    process_line lm strtold line w = Val w' ->
    printed_results (output w') = printed_results (output w) ++ [(i, PInt z)] ->
    nth_error (registers w') i = Some v -> value (kind_of (vtype v)) (bits_of (vtype v)) (vtakum v) = Some (IZR z)).
Proof.
  intros H. set (st := fun _ : bytes => (B754_nan : flt f80, false)).
  destruct (literal_100 ideal st ideal_c99) as (w & v & S & E & Sh & T & V).
  assert (words (str "100") [str "100"]) as W by (apply words_compute; vm_compute; reflexivity).
  destruct (expression_line ideal st _ w _ _ ideal_c99 S W (Literal (str "100")) v eq_refl E) as (w' & p & E' & Sh' & O & Rg & _).
  assert (p = PInt 100) as ->.
  { unfold shows in Sh, Sh'. destruct (vint v); [congruence|]. destruct Sh as (f & x & _ & _ & B). destruct (is_nan x); discriminate. }
  specialize (H ideal st _ w _ _ w' (result_offset w) 100 v ideal_c99 S W E').
  rewrite O, printed_app, printed_single, Rg in H. specialize (H eq_refl (replaced_nth _ _ _ _ (offset_ok ideal st ideal_c99 _ w S))).
  rewrite T in H. change (value Linear 8 (vtakum v) = Some (IZR 100)) in H. rewrite V in H. injection H as H. lra.
Qed.

(** a line whose result is an integer, and one whose result is not *)
Lemma sum_line : forall lm strtold, c99 lm -> exists w' p, process_line lm strtold (str "1 2 +") (initial []) = Val w' /\
  printed_results (output w') = printed_results (output (initial [])) ++ [(0%nat, p)].
Proof.
  intros lm strtold C. destruct (sum_eval lm strtold C) as (v & Ev).
  destruct (expression_line lm strtold [] (initial []) (str "1 2 +") [str "1"; str "2"; str "+"] C (session_nil lm strtold)) with (e := Apply2 (str "+") (Literal (str "1")) (Literal (str "2"))) (v := v) as (w & p & E & _ & O & _).
  - apply words_compute. vm_compute. reflexivity.
  - reflexivity.
  - exact Ev.
  - exists w, p. split; [assumption|]. rewrite O. reflexivity.
Qed.
