(** Processing tokens: the stack of the calculator as a list of numbers, and
    expressions in postfix notation. *)
From Coq Require Import ZArith List Bool Ascii String Reals Lia Lra.
From Flocq Require Import Core.Core IEEE754.BinarySingleNaN.
From Verif Require Import CModel FloatModel Libm Spec WidthConv WidthApi LogApi LinApi Conversion Arith Wrappers WrapApi WidthFacts FloatFacts MiscProps WrapTotal Calculator CalcSpec CalcFacts CalcOps.
Import ListNotations.
Local Open Scope Z_scope.

Section Step.
Variable lm : libm.
Variable strtold : bytes -> flt f80 * bool.

(** * The stack *)
Definition stack_ok (s : stack) : Prop :=
  match data s with None => capacity s = 0%nat | Some block => List.length block = capacity s end.
(** the stack holds the numbers l, the top first *)
Definition holds (s : stack) (l : list number) : Prop :=
  stack_ok s /\ size s = List.length l /\ (size s <= capacity s)%nat /\
  forall block, data s = Some block -> firstn (size s) block = map Some (rev l).
(** everything but the stack *)
Definition same (w w' : world) : Prop :=
  takum_type_ w' = takum_type_ w /\ results w' = results w /\ result_offset w' = result_offset w /\
  output w' = output w /\ allocations w' = allocations w.
Lemma same_refl : forall w, same w w.
Proof. repeat split. Qed.
Lemma same_trans : forall a b c, same a b -> same b c -> same a c.
Proof. intros a b c (A & B & C & D & E) (A' & B' & C' & D' & E'). repeat split; congruence. Qed.
Lemma same_set_stack : forall s w, same w (set_stack s w).
Proof. repeat split. Qed.

Lemma firstn_snoc : forall {A} (l : list A) k x, (k < List.length l)%nat ->
  firstn (S k) (firstn k l ++ x :: skipn (S k) l) = firstn k l ++ [x].
Proof.
  intros A l k x H. rewrite firstn_app, firstn_firstn, firstn_length. replace (Nat.min (S k) k) with k by lia.
  replace (S k - Nat.min k (List.length l))%nat with 1%nat by lia. reflexivity.
Qed.
Lemma length_cons : forall {A} (x : A) l, List.length (x :: l) = S (List.length l).
Proof. reflexivity. Qed.
Lemma write_length : forall {A} (l : list (option A)) k x l', write l k x = Val l' -> List.length l' = List.length l.
Proof.
  intros A l k x l' H. unfold write in H. destruct (Nat.ltb_spec k (List.length l)) as [L|L]; [|discriminate].
  assert (l' = firstn k l ++ Some x :: skipn (S k) l) as -> by congruence.
  rewrite app_length, firstn_length, length_cons, skipn_length. lia.
Qed.

Lemma store_holds : forall s l nb, holds s l -> (size s < capacity s)%nat ->
  exists s', stack_store nb s = Val s' /\ holds s' (nb :: l).
Proof.
  intros s l nb (OK & Sz & Le & D) Lt. unfold stack_store, stack_ok in *. destruct (data s) as [block|]; [|lia].
  specialize (D block eq_refl). unfold write. destruct (Nat.ltb_spec (size s) (List.length block)) as [L|L]; [|lia]. cbn [bind].
  eexists. split; [reflexivity|]. split; [|split; [|split]].
  - unfold stack_ok. cbn [data capacity]. rewrite app_length, firstn_length, length_cons, skipn_length. lia.
  - cbn [size List.length]. lia.
  - cbn [size capacity]. lia.
  - intros b H. cbn [data size] in *.
    assert (b = firstn (size s) block ++ Some nb :: skipn (S (size s)) block) as -> by congruence. rewrite firstn_snoc by assumption. rewrite D. cbn [rev]. rewrite map_app. reflexivity.
Qed.
Lemma push_holds : forall w l nb, holds (stack_ w) l -> allocations w = [] ->
  exists w', stack_push nb w = Val (false, w') /\ holds (stack_ w') (nb :: l) /\ same w w'.
Proof.
  intros w l nb H Al. unfold stack_push. rewrite Al. cbn [allocate].
  destruct (Nat.eqb_spec (size (stack_ w)) (capacity (stack_ w))) as [E|N].
  - set (old := match data (stack_ w) with Some block => block | None => [] end).
    assert (List.length old = capacity (stack_ w)) as Lo.
    { subst old. destruct H as (OK & _). unfold stack_ok in OK. destruct (data (stack_ w)); [assumption|]. rewrite OK. reflexivity. }
    destruct (store_holds (mk_stack (Some (old ++ [None])) (size (stack_ w)) (S (capacity (stack_ w)))) l nb) as (s' & E' & H').
    { destruct H as (OK & Sz & Le & D). split; [|split; [|split]]; cbn [size capacity]; try assumption; try lia.
      - unfold stack_ok. cbn. rewrite app_length. cbn. lia.
      - intros b Hb. cbn [data] in Hb. injection Hb as <-. rewrite firstn_app, E, <- Lo, firstn_all. rewrite Nat.sub_diag. cbn [firstn]. rewrite app_nil_r.
        subst old. unfold stack_ok in OK. destruct (data (stack_ w)) as [block|]; [rewrite <- (D block eq_refl), E, <- OK; symmetry; apply firstn_all|].
        rewrite OK in E. rewrite E in Sz. destruct l; [reflexivity|discriminate]. }
    { cbn [size capacity]. lia. }
    rewrite E'. cbn [bind]. eexists. split; [reflexivity|]. split; [exact H'|]. repeat split. cbn. symmetry. assumption.
  - assert (size (stack_ w) < capacity (stack_ w))%nat as Lt by (destruct H as (_ & _ & Le & _); lia).
    destruct (store_holds _ _ nb H Lt) as (s' & E' & H'). rewrite E'. cbn [bind]. eexists. split; [reflexivity|]. split; [exact H'|]. apply same_set_stack.
Qed.
Lemma pop_holds : forall w l nb, holds (stack_ w) (nb :: l) ->
  exists w', stack_pop w = Val (Some nb, w') /\ holds (stack_ w') l /\ same w w'.
Proof.
  intros w l nb (OK & Sz & Le & D). unfold stack_pop. cbn [List.length] in Sz. rewrite Sz. unfold stack_ok in OK.
  destruct (data (stack_ w)) as [block|] eqn:Eb; [|lia]. specialize (D block eq_refl). rewrite Sz in D. cbn [rev] in D. rewrite map_app in D. cbn [map] in D.
  assert (nth_error block (List.length l) = Some (Some nb)) as N.
  { assert (nth_error (firstn (S (List.length l)) block) (List.length l) = Some (Some nb)) as N.
    { rewrite D. rewrite nth_error_app2; rewrite map_length, rev_length; [|lia]. rewrite Nat.sub_diag. reflexivity. }
    rewrite <- N. symmetry. rewrite <- (firstn_skipn (S (List.length l)) block) at 2. rewrite nth_error_app1; [reflexivity|].
    rewrite firstn_length. lia. }
  rewrite N. eexists. split; [reflexivity|]. split; [|apply same_set_stack].
  split; [|split; [|split]]; cbn [size capacity data set_stack stack_].
  - unfold stack_ok. cbn. assumption.
  - reflexivity.
  - lia.
  - intros b Hb. injection Hb as <-.
    assert (firstn (List.length l) (firstn (S (List.length l)) block) = map Some (rev l)) as Q.
    { rewrite D, firstn_app, map_length, rev_length, Nat.sub_diag. cbn [firstn]. rewrite app_nil_r.
      rewrite <- (rev_length l), <- (map_length Some (rev l)) at 1. apply firstn_all. }
    rewrite firstn_firstn in Q. replace (Nat.min (List.length l) (S (List.length l))) with (List.length l) in Q by lia. exact Q.
Qed.
Lemma pop_empty : forall w, holds (stack_ w) [] -> stack_pop w = Val (None, print StackUnderflow w).
Proof. intros w (_ & Sz & _). unfold stack_pop. cbn in Sz. rewrite Sz. reflexivity. Qed.

(** * The machine on lists *)
Inductive step_result := Continue (l : list number) | Stop (l : list number).

Definition anumber (nb : outcome number) (l : list number) : outcome step_result :=
  let! nb := nb in Val (Continue (nb :: l)).
Definition aop (op : operator_type) (T : takum_type) (l : list number) : outcome step_result :=
  match op, l with
  | HELP, _ => Val (Stop l)
  | SWITCH_TAKUM_TYPE _, _ => Val (Stop l)
  | PRECISION, a :: l =>
      anumber (let! i := precision T (takum_value T a) in let! r := from_extended_float lm T (fint f80 i) in number_from lm T r) l
  | TAKUM_TAKUM f, a :: l => anumber (let! r := f T (takum_value T a) in number_from lm T r) l
  | TAKUM_TAKUM_TAKUM f, b :: a :: l => anumber (let! r := f T (takum_value T a) (takum_value T b) in number_from lm T r) l
  | POWER, b :: a :: l =>
      if integer_value b =? INT64_MAX
      then anumber (let! r := power lm T (takum_value T a) (takum_value T b) in number_from lm T r) l
      else anumber (let! r := integer_power lm T (takum_value T a) (integer_value b) in number_from lm T r) l
  | TAKUM_INT64_TAKUM f, b :: a :: l =>
      if integer_value b =? INT64_MAX then Val (Stop l)
      else anumber (let! r := f T (takum_value T a) (integer_value b) in number_from lm T r) l
  | _, _ => Val (Stop [])
  end.
Definition astep (T : takum_type) (regs : list number) (token : bytes) (l : list number) : outcome step_result :=
  match register_of token with
  | Some i => match nth_error regs i with Some nb => Val (Continue (nb :: l)) | None => UB end
  | None =>
      match find_operator token (operators lm) with
      | Some op => aop op T l
      | None =>
          let! r := number_from_string lm strtold token T in
          match r with None => Val (Stop l) | Some nb => Val (Continue (nb :: l)) end
      end
  end.

(** a stopped line changes neither the registers nor prints a result *)
Definition stopped (w w' : world) : Prop :=
  results w' = results w /\ result_offset w' = result_offset w /\ allocations w' = allocations w /\
  (output w' = output w \/ exists e, output w' = output w ++ [e] /\ forall i p, e <> Result i p).

Lemma push_result_refines : forall w l nb, holds (stack_ w) l -> allocations w = [] ->
  match anumber nb l with
  | UB => push_result nb w = UB
  | Val (Continue l') => exists w', push_result nb w = Val (false, w') /\ holds (stack_ w') l' /\ same w w'
  | Val (Stop _) => False
  end.
Proof.
  intros w l nb H Al. unfold anumber, push_result. destruct nb as [nb|]; cbn [bind]; [|reflexivity]. apply push_holds; assumption.
Qed.

Lemma stopped_same_print : forall w0 w e, same w0 w -> (forall i p, e <> Result i p) -> stopped w0 (print e w).
Proof.
  intros w0 w e (A & B & C & D & E) N. split; [exact B|]. split; [exact C|]. split; [exact E|]. right. exists e. cbn. rewrite D. auto.
Qed.

Definition refines (w : world) (r : outcome step_result) (o : outcome (bool * world)) : Prop :=
  match r with
  | UB => o = UB
  | Val (Continue l') => exists w', o = Val (false, w') /\ holds (stack_ w') l' /\ same w w'
  | Val (Stop l') => exists w', o = Val (true, w') /\ holds (stack_ w') l' /\ stopped w w'
  end.
Lemma refines_push : forall w w' l nb, same w w' -> holds (stack_ w') l -> allocations w = [] -> refines w (anumber nb l) (push_result nb w').
Proof.
  intros w w' l nb S H Al. pose proof (push_result_refines w' l nb H) as P.
  assert (allocations w' = []) as Al' by (destruct S as (_ & _ & _ & _ & E); congruence). specialize (P Al').
  unfold refines. destruct (anumber nb l) as [[l'|l']|]; [|destruct P|assumption].
  destruct P as (w'' & E & H' & S'). exists w''. split; [assumption|]. split; [assumption|]. eapply same_trans; eassumption.
Qed.
Lemma print_stack : forall e w, stack_ (print e w) = stack_ w. Proof. reflexivity. Qed.

Lemma op_refines : forall op w l, holds (stack_ w) l -> allocations w = [] ->
  refines w (aop op (takum_type_ w) l) (apply_operator lm op w).
Proof.
  intros op w l H Al. set (T := takum_type_ w).
  assert (forall w0, same w w0 -> holds (stack_ w0) [] -> refines w (Val (Stop [])) (let! p := stack_pop w0 in let '(a, w1) := p in match a with None => Val (true, w1) | Some _ => UB end)) as _.
  { intros w0 S0 H0. rewrite (pop_empty w0 H0). cbn [bind]. eexists. split; [reflexivity|]. split; [exact H0|]. apply stopped_same_print; [assumption|discriminate]. }
  destruct op; cbn [aop apply_operator]; fold T.
  - exists (print Help w). split; [reflexivity|]. split; [exact H|]. apply stopped_same_print; [apply same_refl|discriminate].
  - destruct l as [|b [|a l]].
    + rewrite (pop_empty w H). cbn [bind]. eexists. split; [reflexivity|]. split; [exact H|]. apply stopped_same_print; [apply same_refl|discriminate].
    + destruct (pop_holds w _ _ H) as (w1 & E1 & H1 & S1). rewrite E1. cbn [bind]. rewrite (pop_empty w1 H1). cbn [bind].
      eexists. split; [reflexivity|]. split; [exact H1|]. apply stopped_same_print; [assumption|discriminate].
    + destruct (pop_holds w _ _ H) as (w1 & E1 & H1 & S1). rewrite E1. cbn [bind].
      destruct (pop_holds w1 _ _ H1) as (w2 & E2 & H2 & S2). rewrite E2. cbn [bind]. pose proof (same_trans _ _ _ S1 S2) as S12.
      destruct (integer_value b =? INT64_MAX); apply refines_push; assumption.
  - destruct l as [|a l].
    + rewrite (pop_empty w H). cbn [bind]. eexists. split; [reflexivity|]. split; [exact H|]. apply stopped_same_print; [apply same_refl|discriminate].
    + destruct (pop_holds w _ _ H) as (w1 & E1 & H1 & S1). rewrite E1. cbn [bind]. apply refines_push; assumption.
  - exists (set_type T0 w). split; [reflexivity|]. split; [exact H|]. split; [reflexivity|]. split; [reflexivity|]. split; [reflexivity|]. left. reflexivity.
  - destruct l as [|b [|a l]].
    + rewrite (pop_empty w H). cbn [bind]. eexists. split; [reflexivity|]. split; [exact H|]. apply stopped_same_print; [apply same_refl|discriminate].
    + destruct (pop_holds w _ _ H) as (w1 & E1 & H1 & S1). rewrite E1. cbn [bind]. rewrite (pop_empty w1 H1). cbn [bind].
      eexists. split; [reflexivity|]. split; [exact H1|]. apply stopped_same_print; [assumption|discriminate].
    + destruct (pop_holds w _ _ H) as (w1 & E1 & H1 & S1). rewrite E1. cbn [bind].
      destruct (pop_holds w1 _ _ H1) as (w2 & E2 & H2 & S2). rewrite E2. cbn [bind]. pose proof (same_trans _ _ _ S1 S2) as S12.
      destruct (integer_value b =? INT64_MAX); [|apply refines_push; assumption].
      exists w2. split; [reflexivity|]. split; [assumption|]. destruct S12 as (A & B & C & D & E). split; [exact B|]. split; [exact C|]. split; [exact E|]. left. exact D.
  - destruct l as [|a l].
    + rewrite (pop_empty w H). cbn [bind]. eexists. split; [reflexivity|]. split; [exact H|]. apply stopped_same_print; [apply same_refl|discriminate].
    + destruct (pop_holds w _ _ H) as (w1 & E1 & H1 & S1). rewrite E1. cbn [bind]. apply refines_push; assumption.
  - destruct l as [|b [|a l]].
    + rewrite (pop_empty w H). cbn [bind]. eexists. split; [reflexivity|]. split; [exact H|]. apply stopped_same_print; [apply same_refl|discriminate].
    + destruct (pop_holds w _ _ H) as (w1 & E1 & H1 & S1). rewrite E1. cbn [bind]. rewrite (pop_empty w1 H1). cbn [bind].
      eexists. split; [reflexivity|]. split; [exact H1|]. apply stopped_same_print; [assumption|discriminate].
    + destruct (pop_holds w _ _ H) as (w1 & E1 & H1 & S1). rewrite E1. cbn [bind].
      destruct (pop_holds w1 _ _ H1) as (w2 & E2 & H2 & S2). rewrite E2. cbn [bind]. pose proof (same_trans _ _ _ S1 S2) as S12.
      apply refines_push; assumption.
Qed.
Lemma token_refines : forall token w l, holds (stack_ w) l -> allocations w = [] ->
  refines w (astep (takum_type_ w) (results w) token l) (process_token lm strtold token w).
Proof.
  intros token w l H Al. unfold astep, process_token.
  destruct (register_of token) as [i|].
  { destruct (nth_error (results w) i) as [nb|]; [|reflexivity]. exact (push_holds w l nb H Al). }
  destruct (find_operator token (operators lm)) as [op|]; [apply op_refines; assumption|].
  destruct (number_from_string lm strtold token (takum_type_ w)) as [[nb|]|]; cbn [bind]; [|..|reflexivity].
  - exact (push_holds w l nb H Al).
  - eexists. split; [reflexivity|]. split; [exact H|]. apply stopped_same_print; [apply same_refl|discriminate].
Qed.

Fixpoint asteps (T : takum_type) (regs : list number) (tokens : list bytes) (l : list number) : outcome step_result :=
  match tokens with
  | [] => Val (Continue l)
  | t :: ts => let! r := astep T regs t l in match r with Continue l' => asteps T regs ts l' | Stop l' => Val (Stop l') end
  end.
Lemma asteps_app : forall T regs t1 t2 l,
  asteps T regs (t1 ++ t2) l = let! r := asteps T regs t1 l in match r with Continue l' => asteps T regs t2 l' | Stop l' => Val (Stop l') end.
Proof.
  intros T regs. induction t1 as [|t t1 IH]; intros t2 l; [reflexivity|]. cbn [asteps app]. destruct (astep T regs t l) as [[l'|l']|]; cbn [bind]; [apply IH|reflexivity|reflexivity].
Qed.
End Step.
