(** Registers, types and undefined behaviour over a session of the calculator. *)
From Coq Require Import ZArith List Bool Ascii String Reals Lia Lra.
From Flocq Require Import Core.Core IEEE754.BinarySingleNaN.
From Verif Require Import CModel FloatModel Libm Spec WidthConv WidthApi LogApi LinApi Conversion Arith Wrappers WrapApi WidthFacts FloatFacts LibmSpec LogConv KindConv WrapTotal Calculator CalcSpec CalcFacts CalcOps CalcStep CalcEval CalcRun.
Import ListNotations.
Local Open Scope Z_scope.

Ltac in_list := first [left; reflexivity | right; in_list].

Section Session.
Variable lm : libm.
Variable strtold : bytes -> flt f80 * bool.
Hypothesis lm_ok : c99 lm.

Lemma session_snoc : forall ls line w, session lm strtold (ls ++ [line]) w ->
  exists w0, session lm strtold ls w0 /\ process_line lm strtold line w0 = Val w.
Proof.
  intros ls line w H. unfold session in *. rewrite run_app in H. destruct (run lm strtold ls (initial [])) as [w0|]; [|discriminate].
  exists w0. split; [reflexivity|]. cbn [bind run] in H. destruct (process_line lm strtold line w0); [exact H|discriminate].
Qed.
Lemma session_ext : forall ls line w w', session lm strtold ls w -> process_line lm strtold line w = Val w' -> session lm strtold (ls ++ [line]) w'.
Proof. intros ls line w w' H E. unfold session in *. rewrite run_app, H. cbn [bind run]. rewrite E. reflexivity. Qed.

(** * Registers *)
Lemma last_snoc : forall i j p rs, last_printed i (rs ++ [(j, p)]) = if Nat.eqb i j then Some p else last_printed i rs.
Proof.
  intros i j p. induction rs as [|[k q] rs IH]; cbn [app last_printed]; [reflexivity|]. rewrite IH.
  destruct (Nat.eqb i j); reflexivity.
Qed.
Lemma nth_replaced : forall {A} i j (v : A) l, (j < List.length l)%nat ->
  nth_error (replaced j v l) i = if Nat.eqb i j then Some v else nth_error l i.
Proof.
  intros A i j v l H. unfold replaced. destruct (Nat.eqb_spec i j) as [->|N].
  - rewrite nth_error_app2; rewrite firstn_length; [|lia]. replace (j - Nat.min j (List.length l))%nat with 0%nat by lia. reflexivity.
  - destruct (Nat.lt_ge_cases i j) as [L|L].
    + rewrite nth_error_app1 by (rewrite firstn_length; lia).
      rewrite <- (firstn_skipn j l) at 2. rewrite nth_error_app1 by (rewrite firstn_length; lia). reflexivity.
    + rewrite nth_error_app2; rewrite firstn_length; [|lia]. replace (i - Nat.min j (List.length l))%nat with (Datatypes.S (i - j - 1))%nat by lia.
      cbn [nth_error]. rewrite <- (firstn_skipn (Datatypes.S j) l) at 2. rewrite nth_error_app2; rewrite firstn_length; [|lia].
      f_equal. lia.
Qed.
Definition history (w : world) : Prop :=
  let rs := printed_results (output w) in
  map fst rs = map (fun k => (k mod 26)%nat) (seq 0 (List.length rs)) /\
  result_offset w = (List.length rs mod 26)%nat /\
  forall i, (i < 26)%nat -> exists v, nth_error (registers w) i = Some v /\
    match last_printed i rs with Some p => shows lm v p | None => v = zero_value end.
Lemma history_session : forall ls w, session lm strtold ls w -> history w.
Proof.
  induction ls as [|line ls IH] using rev_ind; intros w H.
  - injection H as <-. split; [reflexivity|]. split; [reflexivity|]. intros i Hi. exists zero_value. split; [|reflexivity].
    unfold registers. cbn [results initial]. rewrite nth_error_map, nth_error_repeat by assumption. reflexivity.
  - destruct (session_snoc _ _ _ H) as (w0 & H0 & E). specialize (IH w0 H0). pose proof (good_session lm strtold ls w0 lm_ok H0) as G.
    pose proof (line_spec lm strtold line w0 G) as L. cbv zeta in L. rewrite E in L. destruct IH as (I1 & I2 & I3). destruct G as (_ & G2 & G3 & _).
    destruct L as [_ [(nb & p & _ & S & O & R & Off & _)|[_ ((es & O & P) & R & Off)]]]; unfold history, registers; rewrite O, ?R, Off.
    + rewrite printed_app. cbn [printed_results]. rewrite app_length. cbn [List.length]. split; [|split].
      * rewrite map_app, I1, seq_app, map_app. cbn [map seq fst]. rewrite I2. reflexivity.
      * rewrite I2, Nat.add_mod_idemp_l by lia. reflexivity.
      * intros i Hi. rewrite last_snoc, replaced_map, nth_replaced by (rewrite map_length; lia). destruct (Nat.eqb i (result_offset w0)).
        -- exists (abstract nb). auto.
        -- exact (I3 i Hi).
    + rewrite !printed_app, P. cbn [printed_results app]. rewrite app_nil_r. split; [assumption|]. split; [assumption|]. exact I3.
Qed.

(** * Types *)
Lemma find_type : forall name T, In (name, T) types ->
  register_of name = None /\ find_operator name (operators lm) = Some (SWITCH_TAKUM_TYPE T).
Proof.
  intros name T H. pose proof (in_keys _ _ _ H) as K.
  assert (In name reserved) as R by (unfold reserved; right; apply in_or_app; right; apply in_or_app; right; assumption).
  split.
  { destruct (register_of name) as [i|] eqn:E; [|reflexivity]. exfalso. apply (letter_not_reserved name); [|assumption]. exists i. apply register_inv. assumption. }
  destruct (find_reserved lm name R) as (op & E & C). rewrite E.
  destruct C as [|name o' F I N Q| |name b F I Q| |F Q|name T' I].
  - exfalso. repeat (destruct H as [H|H]; [discriminate|]). destruct H.
  - exfalso. apply (disj1 name); [eapply in_keys; eassumption|]. right. assumption.
  - exfalso. repeat (destruct H as [H|H]; [discriminate|]). destruct H.
  - exfalso. apply (disj2 name); [eapply in_keys; eassumption|]. right. assumption.
  - exfalso. repeat (destruct H as [H|H]; [discriminate|]). destruct H.
  - exfalso. repeat (destruct H as [H|H]; [discriminate|]). destruct H.
  - rewrite (keys_nodup types name T T' nodup3 H I). reflexivity.
Qed.
Lemma switch_type : forall w line name T, words line [name] -> In (name, T) types ->
  exists w', process_line lm strtold line w = Val w' /\ takum_type_ w' = T /\ registers w' = registers w /\
    result_offset w' = result_offset w /\ output w' = output w ++ [Prompt].
Proof.
  intros w line name T H I. apply words_iff in H. unfold process_line. rewrite H. cbn [process_tokens]. unfold process_token.
  destruct (find_type name T I) as [-> ->]. cbn [apply_operator bind]. eexists. split; [reflexivity|]. repeat split.
Qed.

Lemma push_type : forall nb w b w', stack_push nb w = Val (b, w') -> takum_type_ w' = takum_type_ w.
Proof.
  intros nb w b w' H. unfold stack_push in H. destruct (Nat.eqb (size (stack_ w)) (capacity (stack_ w))).
  - destruct (allocate (allocations w)) as [ok m]. destruct ok.
    + destruct (stack_store nb _) as [s|]; [|discriminate]. cbn [bind] in H. injection H as _ <-. reflexivity.
    + injection H as _ <-. reflexivity.
  - destruct (stack_store nb _) as [s|]; [|discriminate]. cbn [bind] in H. injection H as _ <-. reflexivity.
Qed.
Lemma pop_type : forall w a w', stack_pop w = Val (a, w') -> takum_type_ w' = takum_type_ w.
Proof.
  intros w a w' H. unfold stack_pop in H. destruct (size (stack_ w)) as [|k]; [injection H as _ <-; reflexivity|].
  destruct (data (stack_ w)) as [bl|]; [|discriminate]. destruct (nth_error bl k) as [[nb|]|]; try discriminate. injection H as _ <-. reflexivity.
Qed.
Lemma push_result_type : forall nb w b w', push_result nb w = Val (b, w') -> takum_type_ w' = takum_type_ w.
Proof. intros [nb|] w b w' H; [|discriminate]. exact (push_type _ _ _ _ H). Qed.
Lemma operator_keeps_type : forall op w b w', (forall T, op <> SWITCH_TAKUM_TYPE T) -> apply_operator lm op w = Val (b, w') -> takum_type_ w' = takum_type_ w.
Proof.
  intros op w b w' N H. destruct op; cbn [apply_operator] in H; [| | |exfalso; eapply N; reflexivity|..].
  { injection H as _ <-. reflexivity. }
  all: destruct (stack_pop w) as [[[nb1|] w1]|] eqn:E1; try discriminate; cbn [bind] in H; pose proof (pop_type _ _ _ E1) as T1.
  all: try (injection H as _ <-; assumption).
  all: try (rewrite <- T1; eapply push_result_type; eassumption).
  all: destruct (stack_pop w1) as [[[nb2|] w2]|] eqn:E2; try discriminate; cbn [bind] in H; pose proof (pop_type _ _ _ E2) as T2; rewrite <- T1, <- T2.
  all: try (injection H as _ <-; reflexivity).
  all: try (destruct (integer_value nb1 =? INT64_MAX)).
  all: try (injection H as _ <-; reflexivity).
  all: eapply push_result_type; eassumption.
Qed.
Lemma token_keeps_type : forall token w b w', ~ In token (map fst types) -> process_token lm strtold token w = Val (b, w') -> takum_type_ w' = takum_type_ w.
Proof.
  intros token w b w' N H. unfold process_token in H. destruct (register_of token) as [i|].
  { destruct (nth_error (results w) i) as [nb|]; [|discriminate]. exact (push_type _ _ _ _ H). }
  destruct (find_operator token (operators lm)) as [op|] eqn:E.
  - eapply operator_keeps_type; [|exact H]. intros T ->. apply N. pose proof (find_class lm _ _ E) as C. inversion C; subst. eapply in_keys; eassumption.
  - destruct (number_from_string lm strtold token (takum_type_ w)) as [[nb|]|]; try discriminate; cbn [bind] in H; [exact (push_type _ _ _ _ H)|].
    injection H as _ <-. reflexivity.
Qed.
Lemma end_keeps_type : forall w w', end_of_line lm w = Val w' -> takum_type_ w' = takum_type_ w.
Proof.
  intros w w' H. unfold end_of_line in H. destruct (negb (Nat.eqb (size (stack_ w)) 1)); [injection H as <-; reflexivity|].
  destruct (stack_pop w) as [[[nb|] w1]|] eqn:E; try discriminate. cbn [bind] in H. destruct (number_print lm nb) as [p|]; [|discriminate]. cbn [bind] in H.
  destruct (Nat.ltb _ _); [|discriminate]. injection H as <-. exact (pop_type _ _ _ E).
Qed.
Lemma tokens_keep_type : forall tokens w w', (forall t, In t tokens -> ~ In t (map fst types)) -> process_tokens lm strtold tokens w = Val w' -> takum_type_ w' = takum_type_ w.
Proof.
  induction tokens as [|t tokens IH]; intros w w' N H; [injection H as <-; reflexivity|]. cbn [process_tokens] in H.
  destruct (process_token lm strtold t w) as [[b w1]|] eqn:E; [|discriminate]. cbn [bind] in H.
  pose proof (token_keeps_type t w b w1 (N t (or_introl eq_refl)) E) as T1. rewrite <- T1. destruct b; [injection H as <-; reflexivity|].
  destruct tokens as [|t' tokens]; [apply end_keeps_type; assumption|]. apply IH; [|assumption]. intros t0 I. apply N. right. assumption.
Qed.
Lemma line_keeps_type : forall w line ws w', words line ws -> (forall t, In t ws -> ~ In t (map fst types)) ->
  process_line lm strtold line w = Val w' -> takum_type_ w' = takum_type_ w.
Proof.
  intros w line ws w' Hw N H. apply words_iff in Hw. unfold process_line in H. rewrite Hw in H.
  destruct (process_tokens lm strtold ws _) as [w1|] eqn:E; [|discriminate]. injection H as <-. exact (tokens_keep_type ws _ w1 N E).
Qed.

(** * Undefined behaviour *)
Lemma line_ub : forall w line, good lm w -> asteps lm strtold (takum_type_ w) (results w) (strtok_all [] line) [] = UB -> process_line lm strtold line w = UB.
Proof.
  intros w line (G1 & _ & _ & _ & G5) H. unfold process_line.
  assert (strtok_all [] line <> []) as N by (intros Q; rewrite Q in H; discriminate).
  pose proof (tokens_refine lm strtold (strtok_all [] line) (set_stack (mk_stack (data (stack_ w)) 0 (capacity (stack_ w))) w) [] N (reset_holds _ G5) G1) as R.
  change (takum_type_ (set_stack (mk_stack (data (stack_ w)) 0 (capacity (stack_ w))) w)) with (takum_type_ w) in R.
  change (results (set_stack (mk_stack (data (stack_ w)) 0 (capacity (stack_ w))) w)) with (results w) in R.
  rewrite H in R. rewrite R. reflexivity.
Qed.
Lemma undefined1 : forall ls w line name o a v f x, session lm strtold ls w -> words line (postfix a ++ [name]) -> In (name, o) names1 ->
  evaluates lm strtold (takum_type_ w) (registers w) a v -> op1_function lm (takum_type_ w) o f -> casts lm v (takum_type_ w) x ->
  f x = UB \/ (exists r, f x = Val r /\ ~ acceptable (kind_of (takum_type_ w)) (bits_of (takum_type_ w)) r) -> process_line lm strtold line w = UB.
Proof.
  intros ls w line name o a v f x Hs Hw I Ha Hf Hx U. pose proof (good_session lm strtold ls w lm_ok Hs) as G. apply line_ub; [assumption|].
  apply words_iff in Hw. rewrite Hw, asteps_app. assert (Forall (consistent lm) (results w)) as F by apply G.
  destruct (evaluates_run lm strtold _ _ F a v Ha) as (nb & <- & C & R). rewrite R. cbn [bind asteps]. unfold astep.
  destruct (name1_run lm name o (takum_type_ w) I) as (op & g & E1 & E2 & Hg & Run & _). rewrite E1, E2, Run.
  rewrite (op1_det lm _ o g f Hg Hf). apply casts_consistent in Hx; [|assumption]. subst x. unfold result_number, anumber.
  destruct U as [->|(r & E & NA)]; [reflexivity|]. rewrite E. cbn [bind].
  assert (is_intn (bits_of (takum_type_ w)) r) as Ir by (eapply op1_intn; [exact Hf|apply (consistent_int lm nb _ C)|exact E]).
  rewrite (proj2 (number_from_spec lm _ r Ir) NA). reflexivity.
Qed.
Lemma undefined2 : forall ls w line name o a b u v r, session lm strtold ls w -> words line (postfix a ++ postfix b ++ [name]) -> In (name, o) names2 ->
  evaluates lm strtold (takum_type_ w) (registers w) a u -> evaluates lm strtold (takum_type_ w) (registers w) b v ->
  op2_result lm (takum_type_ w) o u v r -> ~ acceptable (kind_of (takum_type_ w)) (bits_of (takum_type_ w)) r -> process_line lm strtold line w = UB.
Proof.
  intros ls w line name o a b u v r Hs Hw I Ha Hb Ho NA. pose proof (good_session lm strtold ls w lm_ok Hs) as G. apply line_ub; [assumption|].
  apply words_iff in Hw. rewrite Hw, asteps_app. assert (Forall (consistent lm) (results w)) as F by apply G.
  destruct (evaluates_run lm strtold _ _ F a u Ha) as (na & <- & Ca & Ra). rewrite Ra. cbn [bind].
  destruct (evaluates_run lm strtold _ _ F b v Hb) as (nb & <- & Cb & Rb). rewrite asteps_app, Rb. cbn [bind asteps]. unfold astep.
  destruct (name2_run lm name o (takum_type_ w) I) as (op & E1 & E2 & Run & _). rewrite E1, E2, Run.
  apply op2_run_spec in Ho; [|assumption..]. rewrite Ho. unfold result_number, anumber. cbn [bind].
  destruct (op2_run_total lm _ o na nb _ Ca Cb Ho) as (t & Q & It). injection Q as <-.
  rewrite (proj2 (number_from_spec lm _ r It) NA). reflexivity.
Qed.
End Session.
