(** Which message a line of the calculator prints. *)
From Coq Require Import ZArith List Bool Ascii String Reals Lia Lra.
From Flocq Require Import Core.Core IEEE754.BinarySingleNaN.
From Verif Require Import CModel FloatModel Libm Spec WidthConv WidthApi LogApi LinApi Conversion Arith Wrappers WrapApi WidthFacts FloatFacts LibmSpec WrapTotal Calculator CalcSpec CalcLineSpec CalcFacts CalcOps CalcStep CalcEval CalcRun CalcSession CalcLiteral CalcWitness.
Import ListNotations.
Local Open Scope Z_scope.

Section Line.
Variable lm : libm.
Variable strtold : bytes -> flt f80 * bool.

(** * What a stopping word prints *)
Definition stop_out (op : operator_type) (l : list number) : list event :=
  match op, l with
  | HELP, _ => [Help]
  | SWITCH_TAKUM_TYPE _, _ => []
  | TAKUM_INT64_TAKUM _, _ :: _ :: _ => []
  | _, _ => [StackUnderflow]
  end.
Definition stop_type (op : operator_type) (T : takum_type) : takum_type :=
  match op with SWITCH_TAKUM_TYPE T' => T' | _ => T end.
Definition says (w w' : world) (out : list event) (T' : takum_type) : Prop :=
  output w' = output w ++ out /\ takum_type_ w' = T' /\ results w' = results w /\ result_offset w' = result_offset w.
Definition stops (o : outcome (bool * world)) (w : world) (out : list event) (T' : takum_type) : Prop :=
  exists w', o = Val (true, w') /\ says w w' out T'.

Lemma says_same : forall w w', same w w' -> says w w' [] (takum_type_ w).
Proof. intros w w' (A & B & C & D & _). repeat split; try assumption. rewrite app_nil_r. assumption. Qed.
Lemma says_print : forall w w' e, same w w' -> says w (print e w') [e] (takum_type_ w).
Proof. intros w w' e (A & B & C & D & _). repeat split; try assumption. cbn. rewrite D. reflexivity. Qed.

Lemma op_stop : forall op w l l', holds (stack_ w) l -> aop lm op (takum_type_ w) l = Val (Stop l') ->
  stops (apply_operator lm op w) w (stop_out op l) (stop_type op (takum_type_ w)).
Proof.
  intros op w l l' H S. set (T := takum_type_ w).
  assert (forall (nb : outcome number) k, anumber nb k <> Val (Stop l')) as NA by (intros [nb|] k; discriminate).
  assert (holds (stack_ w) [] -> stops (let! p := stack_pop w in let '(a, w) := p in match a with None => Val (true, w) | Some _ => UB end) w [StackUnderflow] T) as _.
  { intros H0. rewrite (pop_empty w H0). cbn [bind]. eexists. split; [reflexivity|]. apply says_print, same_refl. }
  destruct op; cbn [aop apply_operator stop_type] in *; fold T.
  - eexists. split; [reflexivity|]. apply says_print, same_refl.
  - destruct l as [|b [|a l]]; cbn [stop_out].
    + rewrite (pop_empty w H). cbn [bind]. eexists. split; [reflexivity|]. apply says_print, same_refl.
    + destruct (pop_holds w _ _ H) as (w1 & E1 & H1 & S1). rewrite E1. cbn [bind]. rewrite (pop_empty w1 H1). cbn [bind].
      eexists. split; [reflexivity|]. apply says_print, S1.
    + destruct (integer_value b =? INT64_MAX); exfalso; exact (NA _ _ S).
  - destruct l as [|a l]; cbn [stop_out]; [|exfalso; exact (NA _ _ S)].
    rewrite (pop_empty w H). cbn [bind]. eexists. split; [reflexivity|]. apply says_print, same_refl.
  - eexists. split; [reflexivity|]. repeat split. cbn. rewrite app_nil_r. reflexivity.
  - destruct l as [|b [|a l]]; cbn [stop_out].
    + rewrite (pop_empty w H). cbn [bind]. eexists. split; [reflexivity|]. apply says_print, same_refl.
    + destruct (pop_holds w _ _ H) as (w1 & E1 & H1 & S1). rewrite E1. cbn [bind]. rewrite (pop_empty w1 H1). cbn [bind].
      eexists. split; [reflexivity|]. apply says_print, S1.
    + destruct (pop_holds w _ _ H) as (w1 & E1 & H1 & S1). rewrite E1. cbn [bind].
      destruct (pop_holds w1 _ _ H1) as (w2 & E2 & H2 & S2). rewrite E2. cbn [bind].
      destruct (integer_value b =? INT64_MAX); [|exfalso; exact (NA _ _ S)].
      eexists. split; [reflexivity|]. apply says_same. eapply same_trans; eassumption.
  - destruct l as [|a l]; cbn [stop_out]; [|exfalso; exact (NA _ _ S)].
    rewrite (pop_empty w H). cbn [bind]. eexists. split; [reflexivity|]. apply says_print, same_refl.
  - destruct l as [|b [|a l]]; cbn [stop_out]; [| |exfalso; exact (NA _ _ S)].
    + rewrite (pop_empty w H). cbn [bind]. eexists. split; [reflexivity|]. apply says_print, same_refl.
    + destruct (pop_holds w _ _ H) as (w1 & E1 & H1 & S1). rewrite E1. cbn [bind]. rewrite (pop_empty w1 H1). cbn [bind].
      eexists. split; [reflexivity|]. apply says_print, S1.
Qed.

(** * Expressions and stacks *)
Section Words.
Variable T : takum_type.
Variable regs : list number.
Hypothesis regs_ok : Forall (consistent lm) regs.
Hypothesis regs_26 : List.length regs = 26%nat.
Notation evals := (evaluates lm strtold T (map abstract regs)).
Notation exprs := (expressions lm strtold T (map abstract regs)).

Lemma forest_run : forall es vs, Forall2 evals es vs -> exists l, Forall (consistent lm) l /\ map abstract l = rev vs /\
  forall l0, asteps lm strtold T regs (List.concat (map postfix es)) l0 = Val (Continue (l ++ l0)).
Proof.
  induction 1 as [|e v es vs He _ IH].
  - exists []. split; [constructor|]. split; reflexivity.
  - destruct (evaluates_run lm strtold T regs regs_ok e v He) as (nb & A & C & R). destruct IH as (l & F & M & Rl).
    exists (l ++ [nb]). split; [apply Forall_app; auto|]. split; [rewrite map_app; cbn [map rev]; rewrite M, A; reflexivity|].
    intros l0. cbn [map List.concat]. rewrite asteps_app, R. cbn [bind]. rewrite Rl, <- app_assoc. reflexivity.
Qed.
Lemma forest_of : forall l es, Forall2 (represents lm strtold T regs) l es -> exprs (text es) (map abstract (rev l)).
Proof.
  intros l es F. exists (rev es). split; [reflexivity|]. rewrite map_rev.
  induction F as [|nb e l es [_ E] _ IH]; [constructor|]. cbn [rev map]. apply Forall2_app; [assumption|]. constructor; [assumption|constructor].
Qed.
Lemma represents_consistent : forall l es, Forall2 (represents lm strtold T regs) l es -> Forall (consistent lm) l.
Proof. induction 1 as [|nb e l es [C _] _ IH]; constructor; assumption. Qed.

(** the last values are on top of the stack *)
Lemma top1 : forall l vs vs' a, map abstract l = rev vs -> vs = vs' ++ [a] -> exists na k, l = na :: k /\ abstract na = a.
Proof.
  intros l vs vs' a M ->. rewrite rev_app_distr in M. cbn [rev app] in M. destruct l as [|na k]; [discriminate|]. injection M as M _. eauto.
Qed.
Lemma top2 : forall l vs vs' a b, map abstract l = rev vs -> vs = vs' ++ [a; b] -> exists na nb k, l = nb :: na :: k /\ abstract na = a /\ abstract nb = b.
Proof.
  intros l vs vs' a b M ->. rewrite rev_app_distr in M. cbn [rev app] in M. destruct l as [|nb [|na k]]; try discriminate. injection M as M1 M2 _. exists na, nb, k. auto.
Qed.

(** ** Words that end their line *)
Lemma reserved_register : forall token, In token reserved -> register_of token = None.
Proof.
  intros token H. destruct (register_of token) as [i|] eqn:E; [|reflexivity]. exfalso. apply register_inv in E.
  apply (letter_not_reserved token); [exists i; exact E|assumption].
Qed.
Lemma string_none : forall token, number_from_string lm strtold token T = Val None <-> snd (strtoll token) = false /\ snd (strtold token) = false.
Proof.
  intros token. unfold number_from_string. destruct (strtoll token) as [z b]. destruct (strtold token) as [x c]. cbn [snd].
  assert (forall o : outcome number, (let! nb := o in Val (Some nb)) <> Val None) as N by (intros [o|]; discriminate).
  destruct b. { destruct ((INT64_MAX <=? z) || (z <? INT64_MIN)); (split; [intros H; exfalso; exact (N _ H)|intros [H _]; discriminate]). }
  destruct c; [|tauto]. split; [|intros [_ H]; discriminate]. intros H. exfalso.
  destruct (feq x (fint f80 (-1)) || feq x (fint f80 0) || feq x (fint f80 1)); [|exact (N _ H)].
  destruct (f2int 64 x); [exact (N _ H)|discriminate].
Qed.
Lemma root_name : forall name o, In (name, o) names2 -> o = Root -> name = str "root".
Proof.
  intros name o H Q. unfold names2 in H. repeat (destruct H as [H|H]; [injection H as <- <-; first [discriminate|reflexivity]|]). destruct H.
Qed.

Lemma ends_run : forall vs token out T' l, ends strtold T vs token out T' -> map abstract l = rev vs ->
  exists l', astep lm strtold T regs token l = Val (Stop l') /\
  forall w, holds (stack_ w) l -> takum_type_ w = T -> results w = regs -> stops (process_token lm strtold token w) w out T'.
Proof.
  intros vs token out T' l E M.
  assert (forall op o1 T1, register_of token = None -> find_operator token (operators lm) = Some op ->
    (exists l', aop lm op T l = Val (Stop l')) -> stop_out op l = o1 -> stop_type op T = T1 ->
    exists l', astep lm strtold T regs token l = Val (Stop l') /\
    forall w, holds (stack_ w) l -> takum_type_ w = T -> results w = regs -> stops (process_token lm strtold token w) w o1 T1) as OP.
  { intros op o1 T1 R F (l' & A) <- <-. exists l'. unfold astep, process_token. rewrite R, F. split; [assumption|].
    intros w H QT _. rewrite <- QT. eapply op_stop; [assumption|]. rewrite QT. exact A. }
  destruct E as [|name T' I|name o I Q|name o I Lt|name vs' a b I Q V|token N1 N2 S1 S2].
  - apply (OP HELP); try reflexivity. exists l. reflexivity.
  - apply (OP (SWITCH_TAKUM_TYPE T')).
    + apply reserved_register. unfold reserved. right. apply in_or_app. right. apply in_or_app. right. eapply in_keys; eassumption.
    + apply find_type. assumption.
    + exists l. reflexivity.
    + reflexivity.
    + reflexivity.
  - subst vs. destruct l; [|discriminate M].
    assert (register_of name = None) as R by (apply reserved_register; unfold reserved; right; apply in_or_app; left; eapply in_keys; eassumption).
    destruct (find_op1 lm name o I) as [[_ F]|[_ (F' & F & _)]]; (eapply OP; [exact R|exact F|eexists; reflexivity|reflexivity|reflexivity]).
  - assert (register_of name = None) as R by (apply reserved_register; unfold reserved; right; apply in_or_app; right; apply in_or_app; left; eapply in_keys; eassumption).
    assert (List.length l = List.length vs) as Q by (rewrite <- (map_length abstract), M; apply rev_length).
    assert (l = [] \/ exists a, l = [a]) as Ll. { destruct l as [|a [|b l]]; [left; reflexivity|right; eexists; reflexivity|cbn in Q; lia]. }
    pose proof (find_op2 lm name o I) as F. destruct o as [b| |]; [destruct F as (F' & F & _)| |destruct F as (F' & F & _)];
      (destruct Ll as [->|[a ->]]; (eapply OP; [exact R|exact F|eexists; reflexivity|reflexivity|reflexivity])).
  - assert (register_of name = None) as R by (apply reserved_register; unfold reserved; right; apply in_or_app; right; apply in_or_app; left; eapply in_keys; eassumption).
    destruct (top2 l vs vs' a b M Q) as (na & nb & k & -> & _ & <-).
    destruct (find_op2 lm name Root I) as (F' & F & _). eapply OP; [exact R|exact F| |reflexivity|reflexivity].
    exists k. cbn [aop]. unfold abstract in V. cbn [vint] in V. change (2 ^ 63 - 1) with INT64_MAX in V. destruct (integer_value nb =? INT64_MAX); [reflexivity|discriminate].
  - assert (register_of token = None) as R. { destruct (register_of token) as [i|] eqn:E; [|reflexivity]. exfalso. apply N2. exists i. apply register_inv. assumption. }
    assert (find_operator token (operators lm) = None) as F by (apply find_none; intros I; apply N1, (names_reserved lm); assumption).
    assert (number_from_string lm strtold token T = Val None) as S by (apply string_none; auto).
    exists l. unfold astep, process_token. rewrite R, F, S. split; [reflexivity|]. intros w H QT _. rewrite QT, S. cbn [bind].
    eexists. split; [reflexivity|]. rewrite <- QT. apply says_print, same_refl.
Qed.

Lemma breaks_run : forall vs token l, breaks lm T vs token -> Forall (consistent lm) l -> map abstract l = rev vs ->
  astep lm strtold T regs token l = UB.
Proof.
  intros vs token l B Cl M. destruct B as [name o vs' a f x I Q Hf Hx U|name o vs' a r I Q (f & x & Hf & Hx & E) NA|name o vs' a b r I Q O NA].
  - destruct (top1 l vs vs' a M Q) as (na & k & -> & <-). inversion Cl as [|? ? C _]; subst.
    destruct (name1_run lm name o T I) as (op & g & E1 & E2 & Hg & Run & _). unfold astep. rewrite E1, E2, Run.
    rewrite (op1_det lm _ o g f Hg Hf). apply casts_consistent in Hx; [|assumption]. subst x. rewrite U. reflexivity.
  - destruct (top1 l vs vs' a M Q) as (na & k & -> & <-). inversion Cl as [|? ? C _]; subst.
    destruct (name1_run lm name o T I) as (op & g & E1 & E2 & Hg & Run & _). unfold astep. rewrite E1, E2, Run.
    rewrite (op1_det lm _ o g f Hg Hf). apply casts_consistent in Hx; [|assumption]. subst x. rewrite E. unfold result_number, anumber. cbn [bind].
    assert (is_intn (bits_of T) r) as Ir by (eapply op1_intn; [exact Hf|apply (consistent_int lm na _ C)|exact E]).
    rewrite (proj2 (number_from_spec lm _ r Ir) NA). reflexivity.
  - destruct (top2 l vs vs' a b M Q) as (na & nb & k & -> & <- & <-). inversion Cl as [|? ? Cb Cl']; subst. inversion Cl' as [|? ? Ca _]; subst.
    destruct (name2_run lm name o T I) as (op & E1 & E2 & Run & _). unfold astep. rewrite E1, E2, Run.
    apply op2_run_spec in O; [|assumption..]. rewrite O. unfold result_number, anumber. cbn [bind].
    destruct (op2_run_total lm _ o na nb _ Ca Cb O) as (t & Qt & It). injection Qt as <-.
    rewrite (proj2 (number_from_spec lm _ r It) NA). reflexivity.
Qed.

(** ** Every word goes on, ends its line or breaks *)
Lemma step_cases : forall token l, Forall (consistent lm) l ->
  match astep lm strtold T regs token l with
  | Val (Continue _) => True
  | Val (Stop _) => exists out T', ends strtold T (map abstract (rev l)) token out T'
  | UB => breaks lm T (map abstract (rev l)) token
  end.
Proof.
  intros token l Cl. unfold astep.
  destruct (register_of token) as [i|] eqn:ER.
  { apply register_inv in ER. destruct ER as [Li _]. destruct (nth_error regs i) as [nb|] eqn:E; [exact Logic.I|]. apply nth_error_None in E. lia. }
  destruct (find_operator token (operators lm)) as [op|] eqn:EF.
  2: { destruct (number_from_string lm strtold token T) as [[nb|]|] eqn:ES; cbn [bind]; [exact Logic.I| |exfalso; exact (string_total _ _ _ _ ES)].
    apply string_none in ES. destruct ES as [S1 S2]. exists [InvalidToken token], T. apply ends_invalid; try assumption.
    - intros I. apply (names_reserved lm) in I. apply find_none in EF. contradiction.
    - intros (i & Hi & ->). rewrite (register_letter i Hi) in ER. discriminate. }
  assert (forall name o, token = name -> In (name, o) names1 -> match aop lm op T l with
    | Val (Continue _) => True
    | Val (Stop _) => exists out T', ends strtold T (map abstract (rev l)) token out T'
    | UB => breaks lm T (map abstract (rev l)) token end) as O1.
  { intros name o -> I. destruct (name1_run lm name o T I) as (op' & f & _ & E2 & Ff & Run & Emp). rewrite EF in E2. injection E2 as <-.
    destruct l as [|a l].
    { rewrite Emp. exists [StackUnderflow], T. eapply ends_operand; [exact I|reflexivity]. }
    inversion Cl as [|? ? Ca _]; subst. rewrite Run. assert (casts lm (abstract a) T (takum_value T a)) as Ka by (apply casts_consistent; auto).
    assert (map abstract (rev (a :: l)) = map abstract (rev l) ++ [abstract a]) as Q by (cbn [rev]; rewrite map_app; reflexivity).
    destruct (f (takum_value T a)) as [r|] eqn:Er.
    - assert (is_intn (bits_of T) r) as Ir by (eapply op1_intn; [exact Ff|apply (consistent_int lm a _ Ca)|exact Er]).
      destruct (number_from_spec lm T r Ir) as [P1 P2]. unfold result_number, anumber. cbn [bind].
      destruct (acceptable_dec (kind_of T) (bits_of T) r) as [A|A].
      + destruct (P1 A) as (nb & -> & _). exact Logic.I.
      + rewrite (P2 A). cbn [bind]. eapply breaks_result1; [exact I|exact Q| |exact A]. exists f, (takum_value T a). auto.
    - cbn. eapply breaks_function; [exact I|exact Q|exact Ff|exact Ka|exact Er]. }
  assert (forall name o, token = name -> In (name, o) names2 -> match aop lm op T l with
    | Val (Continue _) => True
    | Val (Stop _) => exists out T', ends strtold T (map abstract (rev l)) token out T'
    | UB => breaks lm T (map abstract (rev l)) token end) as O2.
  { intros name o -> I. destruct (name2_run lm name o T I) as (op' & _ & E2 & Run & One & Emp). rewrite EF in E2. injection E2 as <-.
    destruct l as [|b [|a l]].
    { rewrite Emp. exists [StackUnderflow], T. eapply ends_operands; [exact I|cbn; lia]. }
    { rewrite One. exists [StackUnderflow], T. eapply ends_operands; [exact I|cbn; lia]. }
    inversion Cl as [|? ? Cb Cl']; subst. inversion Cl' as [|? ? Ca _]; subst. rewrite Run.
    assert (map abstract (rev (b :: a :: l)) = map abstract (rev l) ++ [abstract a; abstract b]) as Q by (cbn [rev]; rewrite !map_app; cbn [map]; rewrite <- app_assoc; reflexivity).
    destruct (op2_run lm T o a b) as [r|] eqn:Er.
    - destruct (op2_run_total lm T o a b r Ca Cb Er) as (t & -> & It). destruct (number_from_spec lm T t It) as [P1 P2]. unfold result_number, anumber. cbn [bind].
      destruct (acceptable_dec (kind_of T) (bits_of T) t) as [A|A].
      + destruct (P1 A) as (nb & -> & _). exact Logic.I.
      + rewrite (P2 A). cbn [bind]. eapply breaks_result2; [exact I|exact Q| |exact A]. apply op2_run_spec; assumption.
    - exists [], T. assert (o = Root /\ vint (abstract b) = None) as [-> Vi].
      { unfold abstract. cbn [vint]. change (2 ^ 63 - 1) with INT64_MAX. destruct o as [o| |]; cbn [op2_run] in Er; try discriminate; destruct (integer_value b =? INT64_MAX); try discriminate. auto. }
      eapply ends_degree; [exact I|exact Q|exact Vi]. }
  destruct (find_class lm token op EF) as [|name o G I N Q| |name b G I Q| |G Q|name T' I].
  - cbn [aop]. exists [Help], T. constructor.
  - exact (O1 _ _ eq_refl I).
  - apply (O1 _ Precision eq_refl). in_list.
  - exact (O2 _ _ eq_refl I).
  - apply (O2 _ Power eq_refl). in_list.
  - apply (O2 _ Root eq_refl). in_list.
  - cbn [aop]. exists [], T'. constructor. exact I.
Qed.

Lemma steps_cases : forall tokens l es, Forall2 (represents lm strtold T regs) l es -> 
  (exists vs, exprs (text es ++ tokens) vs) \/
  (exists before token after vs, tokens = before ++ token :: after /\ exprs (text es ++ before) vs /\
    ((exists out T', ends strtold T vs token out T') \/ breaks lm T vs token)).
Proof.
  induction tokens as [|t tokens IH]; intros l es F.
  - left. exists (map abstract (rev l)). rewrite app_nil_r. apply forest_of, F.
  - pose proof (step_cases t l (represents_consistent _ _ F)) as S.
    destruct (astep lm strtold T regs t l) as [[l'|l']|] eqn:E.
    + destruct (step_evaluates lm strtold T regs regs_ok t l l' es F E) as (es' & F' & Q).
      destruct (IH l' es' F') as [(vs & X)|(before & token & after & vs & -> & X & K)].
      * left. exists vs. rewrite Q, <- app_assoc in X. exact X.
      * right. exists (t :: before), token, after, vs. rewrite Q, <- app_assoc in X. auto.
    + right. exists [], t, tokens, (map abstract (rev l)). split; [reflexivity|]. split; [rewrite app_nil_r; apply forest_of, F|left; exact S].
    + right. exists [], t, tokens, (map abstract (rev l)). split; [reflexivity|]. split; [rewrite app_nil_r; apply forest_of, F|right; exact S].
Qed.
Lemma line_cases : forall ws, exists what, line_does lm strtold T (map abstract regs) ws what.
Proof.
  intros ws. destruct ws as [|t ts]; [exists (Says [] T); constructor|].
  destruct (steps_cases (t :: ts) [] [] (Forall2_nil _)) as [(vs & X)|(before & token & after & vs & Q & X & K)]; cbn [text rev map List.concat app] in X.
  - assert (List.length vs = 1%nat \/ List.length vs <> 1%nat) as [L|L] by lia.
    + destruct vs as [|v [|v' vs]]; try discriminate L. exists (Shows v). apply does_show. exact X.
    + exists (Says [NotOneNumber] T). eapply does_count; [discriminate|exact X|exact L].
  - rewrite Q. destruct K as [(out & T' & K)|K].
    + exists (Says out T'). eapply does_end; eassumption.
    + exists Undefined. eapply does_break; eassumption.
Qed.
End Words.

(** * Lines *)
Lemma tokens_stop : forall T regs before token after w l l' out T',
  holds (stack_ w) l -> allocations w = [] -> takum_type_ w = T -> results w = regs ->
  asteps lm strtold T regs before l = Val (Continue l') ->
  (forall w', holds (stack_ w') l' -> takum_type_ w' = T -> results w' = regs -> stops (process_token lm strtold token w') w' out T') ->
  exists w', process_tokens lm strtold (before ++ token :: after) w = Val w' /\ says w w' out T'.
Proof.
  intros T regs before. induction before as [|t before IH]; intros token after w l l' out T' H Al QT QR A S.
  - injection A as <-. destruct (S w H QT QR) as (w' & E & K). cbn [app process_tokens]. rewrite E. cbn [bind]. exists w'. auto.
  - cbn [asteps] in A. pose proof (token_refines lm strtold t w l H Al) as R. rewrite QT, QR in R. unfold refines in R.
    destruct (astep lm strtold T regs t l) as [[l1|l1]|]; try discriminate A. cbn [bind] in A.
    destruct R as (w1 & E & H1 & S1). pose proof S1 as (A1 & B1 & C1 & D1 & E1).
    destruct (IH token after w1 l1 l' out T' H1 ltac:(congruence) ltac:(congruence) ltac:(congruence) A S) as (w' & E' & K).
    exists w'. cbn [app process_tokens]. rewrite E. cbn [bind]. split.
    + destruct (before ++ token :: after) as [|x y] eqn:Q; [destruct before; discriminate|exact E'].
    + destruct K as (K1 & K2 & K3 & K4). split; [congruence|]. split; [assumption|]. split; congruence.
Qed.

Section Session.
Hypothesis lm_ok : c99 lm.
Variables (ls : list bytes) (w : world) (line : bytes) (ws : list bytes).
Hypothesis in_session : session lm strtold ls w.
Hypothesis line_words : words line ws.
Notation does := (line_does lm strtold (takum_type_ w) (registers w) ws).

Lemma does_total : exists what, does what.
Proof. destruct (good_session lm strtold ls w lm_ok in_session) as (_ & L & _ & F & _). apply line_cases; assumption. Qed.

Lemma does_behaves : forall what, does what -> behaves lm w what (process_line lm strtold line w).
Proof.
  intros what D. pose proof (good_session lm strtold ls w lm_ok in_session) as G. pose proof G as (Al & L26 & Off & F & OK).
  pose proof line_words as LW. apply words_iff in LW.
  set (w0 := set_stack (mk_stack (data (stack_ w)) 0 (capacity (stack_ w))) w).
  assert (holds (stack_ w0) []) as H0 by (apply reset_holds, OK).
  assert (process_line lm strtold line w = let! w := process_tokens lm strtold ws w0 in Val (print Prompt w)) as PL by (unfold process_line; rewrite LW; reflexivity).
  inversion D as [Q|ws' v (es & Q & V)|ws' vs N (es & Q & V) Len|before vs word after messages T' (es & Q & V) E|before vs word after (es & Q & V) B]; subst what; cbn [behaves].
  - rewrite PL, <- Q. cbn [process_tokens bind]. eexists. split; [reflexivity|]. repeat split.
  - inversion V as [|e v' es' l' He Hv]; subst. inversion Hv; subst.
    eapply expression_line; [exact lm_ok|exact in_session|exact line_words| |exact He]. rewrite Q. cbn [map List.concat]. apply app_nil_r.
  - subst ws'. destruct (forest_run _ _ F es vs V) as (l & Cl & M & R). specialize (R []). rewrite app_nil_r, <- Q in R.
    pose proof (tokens_refine lm strtold ws w0 [] N H0 Al) as TR.
    change (takum_type_ w0) with (takum_type_ w) in TR. change (results w0) with (results w) in TR. rewrite R in TR.
    destruct TR as (w1 & E & H1 & S1 & S2 & S3 & S4 & S5). rewrite PL, E. unfold end_of_line.
    assert (size (stack_ w1) = List.length vs) as Sz by (rewrite (proj1 (proj2 H1)), <- (map_length abstract), M; apply rev_length).
    rewrite Sz. destruct (Nat.eqb_spec (List.length vs) 1) as [C|C]; [contradiction|]. cbn [negb bind]. eexists. split; [reflexivity|].
    cbn [print output takum_type_ results result_offset]. unfold registers. cbn [results print]. rewrite S4, S2, S3, S1. cbn [w0 set_stack output results result_offset takum_type_].
    rewrite <- app_assoc. repeat split.
  - destruct (forest_run _ _ F es vs V) as (l & Cl & M & R). specialize (R []). rewrite app_nil_r, <- Q in R.
    destruct (ends_run (takum_type_ w) (results w) L26 vs word messages T' l E M) as (_ & _ & S).
    destruct (tokens_stop (takum_type_ w) (results w) before word after w0 [] l messages T' H0 Al eq_refl eq_refl R S) as (w' & E' & K1 & K2 & K3 & K4).
    rewrite PL. match goal with H : _ = ws |- _ => rewrite <- H end. rewrite E'. cbn [bind]. eexists. split; [reflexivity|].
    unfold registers. cbn [print output takum_type_ results result_offset]. rewrite K1, K3, K4, K2. cbn [w0 set_stack output results result_offset takum_type_]. rewrite <- app_assoc. repeat split.
  - destruct (forest_run _ _ F es vs V) as (l & Cl & M & R). specialize (R []). rewrite app_nil_r, <- Q in R.
    apply line_ub; [exact G|]. rewrite LW. match goal with H : _ = ws |- _ => rewrite <- H end. rewrite asteps_app, R. cbn [bind asteps].
    rewrite (breaks_run (takum_type_ w) (results w) vs word l B Cl M). reflexivity.
Qed.
Lemma undefined_iff : process_line lm strtold line w = UB <-> does Undefined.
Proof.
  split; [|exact (does_behaves Undefined)]. intros U. destruct does_total as (what & D). pose proof (does_behaves what D) as B.
  destruct what as [v|messages T'|]; [..|exact D]; exfalso; cbn [behaves] in B.
  - destruct B as (w' & p & E & _). congruence.
  - destruct B as (w' & E & _). congruence.
Qed.
End Session.
End Line.

(** * Some lines *)
Section Cases.
Variable lm : libm.
Variable strtold : bytes -> flt f80 * bool.
Hypothesis lm_ok : c99 lm.
Notation does := (line_does lm strtold TAKUM64 (registers (initial []))).

Lemma one_literal : forall s z, numeral s z -> - 2 ^ 63 <= z < 2 ^ 63 - 1 ->
  exists v, expressions lm strtold TAKUM64 (registers (initial [])) [s] [v].
Proof.
  intros s z N R. destruct (literal_eval lm strtold lm_ok TAKUM64 (registers (initial [])) s z N R) as (v & E & _).
  exists v, [Literal s]. split; [reflexivity|]. constructor; [exact E|constructor].
Qed.
Lemma two_numbers : does [str "1"; str "2"] (Says [NotOneNumber] TAKUM64).
Proof.
  destruct (literal_eval lm strtold lm_ok TAKUM64 (registers (initial [])) _ _ numeral_1 ltac:(lia)) as (u & Eu & _).
  destruct (literal_eval lm strtold lm_ok TAKUM64 (registers (initial [])) _ _ numeral_2 ltac:(lia)) as (v & Ev & _).
  apply (does_count _ _ _ _ _ [u; v]); [discriminate| |discriminate]. exists [Literal (str "1"); Literal (str "2")]. split; [reflexivity|].
  constructor; [exact Eu|]. constructor; [exact Ev|constructor].
Qed.
Lemma missing_operand : does [str "1"; str "+"; str "foo"] (Says [StackUnderflow] TAKUM64).
Proof.
  destruct (one_literal _ _ numeral_1 ltac:(lia)) as (v & E).
  apply (does_end lm strtold _ _ [str "1"] [v] (str "+") [str "foo"] _ _ E). apply (ends_operands _ _ _ _ (Two n_addition)); [in_list|cbn; lia].
Qed.
Lemma unknown_word : snd (strtold (str "foo")) = false -> does [str "1"; str "foo"; str "+"] (Says [InvalidToken (str "foo")] TAKUM64).
Proof.
  intros S. destruct (one_literal _ _ numeral_1 ltac:(lia)) as (v & E).
  apply (does_end lm strtold _ _ [str "1"] [v] (str "foo") [str "+"] _ _ E). apply ends_invalid.
  - intros H. assert (existsb (byte_eqb (str "foo")) reserved = true) as Q by (apply existsb_exists; exists (str "foo"); split; [assumption|apply byte_eqb_eq; reflexivity]). vm_compute in Q. discriminate Q.
  - intros (i & Hi & Q). discriminate Q.
  - vm_compute. reflexivity.
  - exact S.
Qed.
Definition silent : list bytes := [str "1"; str "9223372036854775807"; str "root"].
Lemma silent_root : does silent (Says [] TAKUM64).
Proof.
  destruct (literal_eval lm strtold lm_ok TAKUM64 (registers (initial [])) _ _ numeral_1 ltac:(lia)) as (u & Eu & _).
  pose proof (ev_literal lm strtold TAKUM64 (registers (initial [])) _ _ (literal_large lm strtold TAKUM64 _ _ numeral_big ltac:(lia))) as Ev.
  assert (expressions lm strtold TAKUM64 (registers (initial [])) [str "1"; str "9223372036854775807"] [u; mk_tvalue TAKUM64 (nar (bits_of TAKUM64)) None]) as X.
  { exists [Literal (str "1"); Literal (str "9223372036854775807")]. split; [reflexivity|]. constructor; [exact Eu|]. constructor; [exact Ev|constructor]. }
  apply (does_end lm strtold _ _ [str "1"; str "9223372036854775807"] _ (str "root") [] _ _ X). eapply (ends_degree _ _ _ _ []); [in_list|reflexivity|reflexivity].
Qed.
Lemma silent_not_types : forall t, In t silent -> ~ In t (map fst types).
Proof.
  intros t H J. repeat (destruct H as [H|H]; [subst t; repeat (destruct J as [J|J]; [discriminate|]); destruct J|]). destruct H.
Qed.
Lemma silent_refuted :
  ~ (forall ls w line ws w', session lm strtold ls w -> words line ws -> ws <> [] ->
      (forall t, In t ws -> ~ In t (map fst types)) -> process_line lm strtold line w = Val w' ->
      output w' <> output w ++ [Prompt]).
Proof.
  intros H. assert (words (str "1 9223372036854775807 root") silent) as W by (apply words_compute; vm_compute; reflexivity).
  destruct (does_behaves lm strtold lm_ok [] (initial []) _ _ eq_refl W _ silent_root) as (w' & E & O & _).
  exact (H [] (initial []) _ _ w' eq_refl W ltac:(discriminate) silent_not_types E O).
Qed.
End Cases.
