(** The calculator evaluates expressions in postfix notation. *)
From Coq Require Import ZArith List Bool Ascii String Reals Lia Lra.
From Flocq Require Import Core.Core IEEE754.BinarySingleNaN.
From Verif Require Import CModel FloatModel Libm Spec WidthConv WidthApi LogApi LinApi Conversion Arith Wrappers WrapApi WidthFacts FloatFacts MiscProps WrapTotal Calculator CalcSpec CalcFacts CalcOps CalcStep.
Import ListNotations.
Local Open Scope Z_scope.

Ltac in_list := first [left; reflexivity | right; in_list].

Section Eval.
Variable lm : libm.
Variable strtold : bytes -> flt f80 * bool.

Lemma clamp_range : forall z, INT64_MIN <= clamp64 z <= INT64_MAX.
Proof. intros z. unfold clamp64, INT64_MIN, INT64_MAX. lia. Qed.
Lemma strtoll_range : forall s, INT64_MIN <= fst (strtoll s) <= INT64_MAX.
Proof.
  intros s. assert (INT64_MIN <= 0 <= INT64_MAX) as Z0 by (unfold INT64_MIN, INT64_MAX; lia). unfold strtoll.
  destruct (match skip_space s with [] => (false, skip_space s) | c :: s' => if ascii_dec c "-" then (true, s') else if ascii_dec c "+" then (false, s') else (false, skip_space s) end) as [neg s2].
  assert (forall base digits, INT64_MIN <= fst (match digits with
    | [] => (0, match s with [] => true | _ => false end)
    | c :: _ => if is_digit base c then let '(v, rest) := read_digits base 0 digits in (clamp64 (if neg then - v else v), match rest with [] => true | _ => false end)
                else (0, match s with [] => true | _ => false end) end) <= INT64_MAX) as F.
  { intros base digits. destruct digits as [|c d]; [exact Z0|]. destruct (is_digit base c); [|exact Z0].
    destruct (read_digits base 0 (c :: d)) as [v rest]. apply clamp_range. }
  destruct s2 as [|c0 [|c1 [|c2 s2]]]; [exact (F 10 [])|..]; destruct (ascii_dec c0 "0").
  - exact (F 8 [c0]).
  - exact (F 10 [c0]).
  - exact (F 8 [c0; c1]).
  - exact (F 10 [c0; c1]).
  - destruct ((if ascii_dec c1 "x" then true else if ascii_dec c1 "X" then true else false) && is_digit 16 c2); [exact (F 16 (c2 :: s2))|exact (F 8 (c0 :: c1 :: c2 :: s2))].
  - exact (F 10 (c0 :: c1 :: c2 :: s2)).
Qed.

Lemma filled_abstract : forall T t i o, filled lm T t i o -> exists nb, o = Val nb /\ consistent lm nb /\
  abstract nb = mk_tvalue T t (if i =? 2 ^ 63 - 1 then None else Some i).
Proof.
  intros T t i o (nb & E & C & Q). injection Q as Q1 Q2 Q3. exists nb. split; [assumption|]. split; [assumption|]. unfold abstract. rewrite Q1, Q2, Q3. reflexivity.
Qed.

Lemma isf_int80 : forall z, (Z.abs z <= 2 ^ 64)%Z -> isf (fint f80 z) (IZR z).
Proof. intros z H. apply isf_fint. exact H. Qed.
Lemma feq_small : forall (x : flt f80) z, (Z.abs z <= 2 ^ 64)%Z -> feq x (fint f80 z) = true <-> isf x (IZR z).
Proof.
  intros x z Hz. pose proof (isf_int80 z Hz) as I. split.
  - intros H. destruct (is_finite x) eqn:Fx.
    + split; [assumption|]. rewrite (feq_isf x _ (B2R x) (IZR z) (conj Fx eq_refl) I) in H. destruct (Req_bool_spec (B2R x) (IZR z)); [assumption|discriminate].
    + exfalso. destruct I as [Fz _]. destruct x as [s|s| |s m e He]; try discriminate Fx; destruct (fint f80 z) as [s'|s'| |s' m' e' He']; try discriminate Fz; try destruct s; try destruct s'; discriminate H.
  - intros H. rewrite (feq_isf x _ _ _ H I). apply Req_bool_true. reflexivity.
Qed.

(** literals *)
Lemma string_total : forall token T, number_from_string lm strtold token T <> UB.
Proof.
  intros token T. unfold number_from_string. destruct (strtoll token) as [z b]. destruct (strtold token) as [x c].
  assert (forall y i, (let! nb := number_from_literal lm T y i in Val (Some nb)) <> UB) as L.
  { intros y i. destruct (literal_total lm T y i) as (t & F & _). destruct (filled_abstract _ _ _ _ F) as (nb & E & _). rewrite E. discriminate. }
  destruct b.
  { destruct ((INT64_MAX <=? z) || (z <? INT64_MIN)); apply L. }
  destruct c; [|discriminate].
  destruct (feq x (fint f80 (-1)) || feq x (fint f80 0) || feq x (fint f80 1)) eqn:Q; [|apply L].
  assert (exists i, isf x (IZR i) /\ -1 <= i <= 1) as (i & Hi & Ri).
  { rewrite !orb_true_iff in Q. destruct Q as [[Q|Q]|Q]; apply feq_small in Q; try (cbn; lia); eexists; (split; [exact Q|lia]). }
  assert (f2int 64 x = Val i) as ->.
  { apply f2int_isf; [assumption|]. unfold fits_s. apply andb_true_iff. rewrite Z.leb_le, Z.ltb_lt. lia. }
  cbn [bind]. apply L.
Qed.
Lemma string_sound : forall token T nb, register_of token = None -> find_operator token (operators lm) = None ->
  number_from_string lm strtold token T = Val (Some nb) -> consistent lm nb /\ is_literal lm strtold T token (abstract nb).
Proof.
  intros token T nb HR HF H.
  assert (~ In token reserved /\ ~ is_letter token) as [N1 N2].
  { split.
    - intros I. apply (names_reserved lm) in I. apply find_none in HF. tauto.
    - intros (i & Hi & ->). rewrite (register_letter i Hi) in HR. discriminate. }
  unfold number_from_string in H. pose proof (strtoll_range token) as RZ. destruct (strtoll token) as [z b] eqn:EZ. destruct (strtold token) as [x c] eqn:EX. cbn [fst] in RZ.
  assert (forall y i, (let! nb := number_from_literal lm T y i in Val (Some nb)) = Val (Some nb) ->
    reads strtold token y (if i =? 2 ^ 63 - 1 then None else Some i) -> consistent lm nb /\ is_literal lm strtold T token (abstract nb)) as L.
  { intros y i E R. destruct (literal_total lm T y i) as (t & F & It & Et). destruct (filled_abstract _ _ _ _ F) as (nb' & E' & C' & A'). rewrite E' in E. cbn [bind] in E. injection E as ->.
    split; [assumption|]. unfold is_literal. rewrite A'. cbn [vtype vtakum vint]. split; [assumption|]. split; [assumption|]. split; [reflexivity|].
    exists (from_extended_float lm T), y. split; [apply from_float_ext|]. auto. }
  destruct b.
  { destruct ((INT64_MAX <=? z) || (z <? INT64_MIN)) eqn:B.
    - apply (L _ _ H). unfold INT64_MAX. rewrite Z.eqb_refl. apply reads_too_large. rewrite EZ. f_equal.
      apply orb_true_iff in B. rewrite Z.leb_le, Z.ltb_lt in B. unfold INT64_MAX in *. lia.
    - apply (L _ _ H). apply orb_false_iff in B. rewrite Z.leb_gt, Z.ltb_ge in B. unfold INT64_MAX in B.
      destruct (Z.eqb_spec z (2 ^ 63 - 1)); [lia|]. apply reads_integer; [assumption|lia]. }
  destruct c; [|discriminate].
  destruct (feq x (fint f80 (-1)) || feq x (fint f80 0) || feq x (fint f80 1)) eqn:Q.
  - assert (exists i, isf x (IZR i) /\ -1 <= i <= 1) as (i & Hi & Ri).
    { rewrite !orb_true_iff in Q. destruct Q as [[Q|Q]|Q]; apply feq_small in Q; try (cbn; lia); eexists; (split; [exact Q|lia]). }
    assert (f2int 64 x = Val i) as E.
    { apply f2int_isf; [assumption|]. unfold fits_s. apply andb_true_iff. rewrite Z.leb_le, Z.ltb_lt. lia. }
    rewrite E in H. cbn [bind] in H. apply (L _ _ H). destruct (Z.eqb_spec i (2 ^ 63 - 1)); [lia|].
    apply reads_float_integer; [rewrite EZ; reflexivity|assumption|apply Hi|apply Hi|assumption].
  - apply (L _ _ H). unfold INT64_MAX. rewrite Z.eqb_refl. apply reads_float; [rewrite EZ; reflexivity|assumption|].
    intros i Ri Hi. rewrite !orb_false_iff in Q. destruct Q as [[Q1 Q2] Q3].
    assert (feq x (fint f80 i) = true) as C by (apply feq_small; [lia|exact Hi]).
    assert (i = -1 \/ i = 0 \/ i = 1) as [->|[->| ->]] by lia; congruence.
Qed.
Lemma string_complete : forall token T v, is_literal lm strtold T token v ->
  register_of token = None /\ find_operator token (operators lm) = None /\
  exists nb, number_from_string lm strtold token T = Val (Some nb) /\ abstract nb = v /\ consistent lm nb.
Proof.
  intros token T [vt vk vi] (N1 & N2 & QT & f & x & HF & R & E). cbn [vtype vtakum vint] in *. subst vt.
  rewrite (from_float_det lm T f HF) in E. clear f HF.
  split. { destruct (register_of token) as [i|] eqn:ER; [|reflexivity]. exfalso. apply N2. exists i. apply register_inv. assumption. }
  split. { apply find_none. intros I. apply N1. apply (names_reserved lm). assumption. }
  assert (forall i, vi = (if i =? 2 ^ 63 - 1 then None else Some i) -> exists nb, (let! nb := number_from_literal lm T x i in Val (Some nb)) = Val (Some nb) /\ abstract nb = mk_tvalue T vk vi /\ consistent lm nb) as L.
  { intros i ->. destruct (literal_total lm T x i) as (t & F & It & Et). destruct (filled_abstract _ _ _ _ F) as (nb & E' & C' & A'). rewrite E'. cbn [bind].
    exists nb. split; [reflexivity|]. split; [|assumption]. rewrite A'. rewrite Et in E. injection E as ->. reflexivity. }
  unfold number_from_string. pose proof (strtoll_range token) as RZ. destruct (strtoll token) as [z b] eqn:EZ. destruct (strtold token) as [y c] eqn:EY. cbn [fst snd] in *.
  destruct R as [z' E1 E2|E1|z' x' E1 E2 E3 E4 E5|x' E1 E2 E3].
  - rewrite EZ in E1. injection E1 as -> ->. destruct ((INT64_MAX <=? z') || (z' <? INT64_MIN)) eqn:B.
    { exfalso. apply orb_true_iff in B. rewrite Z.leb_le, Z.ltb_lt in B. unfold INT64_MAX in *. lia. }
    apply L. destruct (Z.eqb_spec z' (2 ^ 63 - 1)); [lia|reflexivity].
  - rewrite EZ in E1. injection E1 as -> ->. change ((INT64_MAX <=? 2 ^ 63 - 1) || (2 ^ 63 - 1 <? INT64_MIN)) with true. apply L. reflexivity.
  - rewrite EZ in E1. cbn in E1. subst b. rewrite EY in E2. injection E2 as -> ->.
    assert (f2int 64 x' = Val z') as Ei.
    { apply f2int_isf; [split; assumption|]. unfold fits_s. apply andb_true_iff. rewrite Z.leb_le, Z.ltb_lt. lia. }
    assert (feq x' (fint f80 (-1)) || feq x' (fint f80 0) || feq x' (fint f80 1) = true) as ->.
    { assert (feq x' (fint f80 z') = true) as C by (apply feq_small; [lia|split; assumption]).
      assert (z' = -1 \/ z' = 0 \/ z' = 1) as [->|[->| ->]] by lia; rewrite C, ?orb_true_r; reflexivity. }
    rewrite Ei. cbn [bind]. apply L. destruct (Z.eqb_spec z' (2 ^ 63 - 1)); [lia|reflexivity].
  - rewrite EZ in E1. cbn in E1. subst b. rewrite EY in E2. injection E2 as -> ->.
    assert (feq x' (fint f80 (-1)) || feq x' (fint f80 0) || feq x' (fint f80 1) = false) as ->.
    { assert (forall i, -1 <= i <= 1 -> feq x' (fint f80 i) = false) as C.
      { intros i Ri. rewrite <- not_true_iff_false. intros Q. apply feq_small in Q; [|lia]. exact (E3 i Ri Q). }
      rewrite !C by lia. reflexivity. }
    apply L. reflexivity.
Qed.

(** operands *)
Lemma casts_consistent : forall nb T x, consistent lm nb -> (casts lm (abstract nb) T x <-> x = takum_value T nb).
Proof.
  intros nb T x C. destruct (C T) as (_ & f & Hf & Ef). unfold casts, abstract. cbn [vtype vtakum]. split.
  - intros (g & Hg & Eg). rewrite (cast_det lm _ _ _ _ Hg Hf) in Eg. rewrite Ef in Eg. congruence.
  - intros ->. exists f. auto.
Qed.
Lemma consistent_int : forall nb T, consistent lm nb -> is_intn (bits_of T) (takum_value T nb).
Proof. intros nb T C. apply C. Qed.
Lemma known_unique : forall k n r i j, known_integer k n r i -> known_integer k n r j -> i = j.
Proof.
  intros k n r [i|] [j|] Hi Hj; cbn in Hi, Hj; try reflexivity.
  - destruct Hi as [_ Vi], Hj as [_ Vj]. rewrite Vi in Vj. injection Vj as Q. apply eq_IZR in Q. congruence.
  - exfalso. destruct Hi as [R V]. exact (Hj i R V).
  - exfalso. destruct Hj as [R V]. exact (Hi j R V).
Qed.
Lemma result_unique : forall T r v w, is_result T r v -> is_result T r w -> v = w.
Proof.
  intros T r [a b c] [a' b' c'] (A & B & _ & K) (A' & B' & _ & K'). cbn [vtype vtakum vint] in *. rewrite (known_unique _ _ _ _ _ K K'). congruence.
Qed.
Lemma op1_total : forall T o f x, op1_function lm T o f -> is_intn (bits_of T) x -> o <> Absolute -> good_val (bits_of T) (f x).
Proof.
  intros T o f x H Ix N. destruct H.
  - apply unary_total. assumption.
  - congruence.
  - eapply (takum_function_total lm); [apply tf_log_inversion; eassumption|assumption].
  - eapply (takum_function_total lm); [apply tf_lin_inversion; eassumption|assumption].
  - eapply (takum_function_total lm); [apply tf_log_square_root; eassumption|assumption].
  - eapply (takum_function_total lm); [apply tf_lin_square_root; eassumption|assumption].
  - eapply (takum_function_total lm); [eapply tf_sign; eassumption|assumption].
  - assert (exists i, p x = Val i) as (i & ->).
    { destruct (Z.eq_dec x 0) as [->|N0]; [eexists; apply (precision_special _ _ _ H)|].
      destruct (Z.eq_dec x (nar (bits_of T))) as [->|N1]; [eexists; apply (precision_special _ _ _ H)|].
      eexists. apply (precision_correct _ _ _ _ H). split; [assumption|]. split; assumption. }
    cbn [bind]. exact (from_total lm (kind_of T) (bits_of T) f80 f _ H0).
Qed.
Lemma absolute_total : forall T f x r, absolute_value (kind_of T) (bits_of T) f -> is_intn (bits_of T) x -> f x = Val r -> is_intn (bits_of T) r.
Proof.
  intros T f x r H Ix E. assert (f = absolute (bits_of T)) as -> by (destruct H; reflexivity).
  pose proof (bits_range T). destruct (Z.eq_dec x (nar (bits_of T))) as [->|N].
  - destruct (Z_lt_dec (bits_of T) 32) as [L|L].
    + rewrite (absolute_nar (kind_of T) (bits_of T) _ H L) in E. injection E as <-. exact Ix.
    + rewrite (absolute_nar_ub (kind_of T) (bits_of T) _ H ltac:(lia)) in E. discriminate.
  - rewrite absolute_eq in E by auto. injection E as <-. apply to_s_intn. lia.
Qed.

(** * Expressions *)
Definition result_number (T : takum_type) (r : outcome Z) (l : list number) : outcome step_result :=
  anumber (let! r := r in number_from lm T r) l.

Lemma name1_run : forall name o T, In (name, o) names1 -> exists op f,
  register_of name = None /\ find_operator name (operators lm) = Some op /\ op1_function lm T o f /\
  (forall a l, aop lm op T (a :: l) = result_number T (f (takum_value T a)) l) /\ aop lm op T [] = Val (Stop []).
Proof.
  intros name o T H.
  assert (register_of name = None) as R.
  { destruct (register_of name) as [i|] eqn:E; [|reflexivity]. exfalso. apply (letter_not_reserved name).
    - exists i. apply register_inv. assumption.
    - unfold reserved. right. apply in_or_app. left. eapply in_keys; eassumption. }
  destruct (find_op1 lm name o H) as [[-> E]|(N & F & E & C)].
  - exists PRECISION, (fun t => let! i := precision T t in from_extended_float lm T (fint f80 i)). split; [assumption|]. split; [assumption|]. split; [|split].
    + apply op_precision; [apply precision_fun|apply from_float_ext].
    + intros a l. cbn [aop]. unfold result_number. destruct (precision T (takum_value T a)); reflexivity.
    + reflexivity.
  - exists (TAKUM_TAKUM F), (F T). split; [assumption|]. split; [assumption|]. split; [apply C|]. split; reflexivity.
Qed.
(** what an operator with two operands gives *)
Definition op2_run (T : takum_type) (o : op2) (a b : number) : option (outcome Z) :=
  let x := takum_value T a in
  match o with
  | Two f => Some (api_binary (kind_of T) lm f (width_of T) x (takum_value T b))
  | Power => if integer_value b =? INT64_MAX then Some (api_binary (kind_of T) lm n_power (width_of T) x (takum_value T b))
             else Some (api_integer_power (kind_of T) lm (width_of T) x (integer_value b))
  | Root => if integer_value b =? INT64_MAX then None else Some (api_root (kind_of T) lm (width_of T) x (integer_value b))
  end.
Lemma name2_run : forall name o T, In (name, o) names2 -> exists op,
  register_of name = None /\ find_operator name (operators lm) = Some op /\
  (forall a b l, aop lm op T (b :: a :: l) = match op2_run T o a b with Some r => result_number T r l | None => Val (Stop l) end) /\
  (forall b, aop lm op T [b] = Val (Stop [])) /\ aop lm op T [] = Val (Stop []).
Proof.
  intros name o T H.
  assert (register_of name = None) as R.
  { destruct (register_of name) as [i|] eqn:E; [|reflexivity]. exfalso. apply (letter_not_reserved name).
    - exists i. apply register_inv. assumption.
    - unfold reserved. right. apply in_or_app. right. apply in_or_app. left. eapply in_keys; eassumption. }
  pose proof (find_op2 lm name o H) as Q. destruct o as [b| |].
  - destruct Q as (F & E & C). exists (TAKUM_TAKUM_TAKUM F). split; [assumption|]. split; [assumption|]. split; [|split; reflexivity].
    intros. cbn [aop op2_run]. rewrite C. reflexivity.
  - exists POWER. split; [assumption|]. split; [assumption|]. split; [|split; reflexivity].
    intros. cbn [aop op2_run]. unfold result_number. destruct (integer_value b =? INT64_MAX); destruct T; reflexivity.
  - destruct Q as (F & E & C). exists (TAKUM_INT64_TAKUM F). split; [assumption|]. split; [assumption|]. split; [|split; reflexivity].
    intros. cbn [aop op2_run]. rewrite C. unfold result_number. destruct (integer_value b =? INT64_MAX); reflexivity.
Qed.
Lemma op2_run_spec : forall T o a b r, consistent lm a -> consistent lm b ->
  (op2_result lm T o (abstract a) (abstract b) r <-> op2_run T o a b = Some (Val r)).
Proof.
  intros T o a b r Ca Cb.
  assert (forall x, casts lm (abstract a) T x -> x = takum_value T a) as Ua by (intros; apply casts_consistent; assumption).
  assert (forall x, casts lm (abstract b) T x -> x = takum_value T b) as Ub by (intros; apply casts_consistent; assumption).
  assert (casts lm (abstract a) T (takum_value T a)) as Ka by (apply casts_consistent; auto).
  assert (casts lm (abstract b) T (takum_value T b)) as Kb by (apply casts_consistent; auto).
  assert (vint (abstract b) = if integer_value b =? INT64_MAX then None else Some (integer_value b)) as Vi by reflexivity.
  split.
  - intros H. inversion H as [o' a' b' x y r' H1 H2 H3|a' b' x y r' H0 H1 H2 H3|a' b' x z r' H0 H1 H3|a' b' x z r' H0 H1 H3]; subst; cbn [op2_run].
    + rewrite <- (Ua x H1), <- (Ub y H2), H3. reflexivity.
    + rewrite Vi in H0. destruct (integer_value b =? INT64_MAX); [|discriminate]. rewrite <- (Ua x H1), <- (Ub y H2), H3. reflexivity.
    + rewrite Vi in H0. destruct (integer_value b =? INT64_MAX); [discriminate|]. injection H0 as ->. rewrite <- (Ua x H1), H3. reflexivity.
    + rewrite Vi in H0. destruct (integer_value b =? INT64_MAX); [discriminate|]. injection H0 as ->. rewrite <- (Ua x H1), H3. reflexivity.
  - intros H. destruct o as [o| |]; cbn [op2_run] in H.
    + injection H as H. eapply op_two; eassumption.
    + destruct (integer_value b =? INT64_MAX).
      * injection H as H. eapply op_power; eassumption.
      * injection H as H. eapply op_integer_power; eassumption.
    + destruct (integer_value b =? INT64_MAX); [discriminate|]. injection H as H. eapply op_root; eassumption.
Qed.
Lemma op2_run_total : forall T o a b r, consistent lm a -> consistent lm b -> op2_run T o a b = Some r -> good_val (bits_of T) r.
Proof.
  intros T o a b r Ca Cb H. pose proof (consistent_int a T Ca) as Ia. pose proof (consistent_int b T Cb) as Ib. unfold bits_of in *.
  destruct o as [o| |]; cbn [op2_run] in H; [|destruct (integer_value b =? INT64_MAX)..].
  - injection H as <-. apply binary_total; assumption.
  - injection H as <-. apply binary_total; assumption.
  - injection H as <-. apply ipow_total; assumption.
  - discriminate.
  - injection H as <-. apply root_total; assumption.
Qed.
Lemma op1_intn : forall T o f x r, op1_function lm T o f -> is_intn (bits_of T) x -> f x = Val r -> is_intn (bits_of T) r.
Proof.
  intros T o f x r H Ix E. assert (o = Absolute \/ o <> Absolute) as [->|N] by (destruct o; [right|left|right..]; congruence).
  - inversion H; subst. eapply absolute_total; eassumption.
  - destruct (op1_total T o f x H Ix N) as (t & E' & It). congruence.
Qed.

Lemma acceptable_dec : forall k n t, acceptable k n t \/ ~ acceptable k n t.
Proof.
  intros [] n t; [left; discriminate|]. unfold acceptable. destruct (value Linear n t) as [x|] eqn:E.
  - destruct (Rlt_dec (- IZR (2 ^ 63) - 1) x) as [L|L]; [destruct (Rlt_dec x (IZR (2 ^ 63))) as [U|U]|].
    + left. exists x. auto.
    + right. intros H. destruct (H eq_refl) as (y & Q & _ & Q'). injection Q as <-. contradiction.
    + right. intros H. destruct (H eq_refl) as (y & Q & Q' & _). injection Q as <-. contradiction.
  - right. intros H. destruct (H eq_refl) as (y & Q & _). discriminate.
Qed.
Lemma result_run : forall T r, is_intn (bits_of T) r -> acceptable (kind_of T) (bits_of T) r ->
  exists nb, (forall l, result_number T (Val r) l = Val (Continue (nb :: l))) /\ consistent lm nb /\ is_result T r (abstract nb).
Proof.
  intros T r Ir A. destruct (number_from_spec lm T r Ir) as [S _]. destruct (S A) as (nb & E & C & R).
  exists nb. unfold result_number, anumber. cbn [bind]. rewrite E. auto.
Qed.
Lemma result_inv : forall T r l res, (forall t, r = Val t -> is_intn (bits_of T) t) -> result_number T r l = Val res ->
  exists t nb, r = Val t /\ res = Continue (nb :: l) /\ consistent lm nb /\ is_result T t (abstract nb).
Proof.
  intros T r l res I H. destruct r as [t|]; [|discriminate]. specialize (I t eq_refl). destruct (number_from_spec lm T t I) as [S N].
  destruct (acceptable_dec (kind_of T) (bits_of T) t) as [A|A].
  - destruct (S A) as (nb & E & C & R). exists t, nb. unfold result_number, anumber in H. cbn [bind] in H. rewrite E in H. cbn [bind] in H. split; [reflexivity|]. split; [congruence|]. auto.
  - exfalso. unfold result_number, anumber in H. cbn [bind] in H. rewrite (N A) in H. discriminate.
Qed.

Variable T : takum_type.
Variable regs : list number.
Hypothesis regs_ok : Forall (consistent lm) regs.

Lemma evaluates_run : forall e v, evaluates lm strtold T (map abstract regs) e v ->
  exists nb, abstract nb = v /\ consistent lm nb /\ forall l, asteps lm strtold T regs (postfix e) l = Val (Continue (nb :: l)).
Proof.
  induction 1 as [token v L|i v Li N|name o a v r w I Ha IH O R|name o a b u v r w I Ha IHa Hb IHb O R].
  - destruct (string_complete _ _ _ L) as (E1 & E2 & nb & E3 & A & C). exists nb. split; [assumption|]. split; [assumption|].
    intros l. cbn [postfix asteps]. unfold astep. rewrite E1, E2, E3. reflexivity.
  - rewrite nth_error_map in N. destruct (nth_error regs i) as [nb|] eqn:E; [|discriminate]. exists nb. split; [injection N as N; exact N|].
    split. { rewrite Forall_forall in regs_ok. apply regs_ok. eapply nth_error_In; eassumption. }
    intros l. cbn [postfix asteps]. unfold astep. rewrite (register_letter i Li), E. reflexivity.
  - destruct IH as (na & <- & Ca & Ra). destruct (name1_run name o T I) as (op & f & E1 & E2 & F & Run & _).
    destruct O as (g & x & G & K & E). apply casts_consistent in K; [|assumption]. subst x. rewrite (op1_det lm T o g f G F) in E.
    pose proof (op1_intn T o f _ r F (consistent_int na T Ca) E) as Ir.
    assert (acceptable (kind_of T) (bits_of T) r) as Ac by (destruct R as (_ & _ & Ac & _); exact Ac).
    destruct (result_run T r Ir Ac) as (nb & Rn & C & R'). exists nb. split; [eapply result_unique; eassumption|]. split; [assumption|].
    intros l. cbn [postfix]. rewrite asteps_app, Ra. cbn [bind asteps]. unfold astep. rewrite E1, E2, Run, E, Rn. reflexivity.
  - destruct IHa as (na & <- & Ca & Ra). destruct IHb as (nb & <- & Cb & Rb). destruct (name2_run name o T I) as (op & E1 & E2 & Run & _).
    apply op2_run_spec in O; [|assumption..].
    assert (is_intn (bits_of T) r) as Ir by (destruct (op2_run_total T o na nb _ Ca Cb O) as (t & Q & It); injection Q as ->; exact It).
    assert (acceptable (kind_of T) (bits_of T) r) as Ac by (destruct R as (_ & _ & Ac & _); exact Ac).
    destruct (result_run T r Ir Ac) as (nc & Rn & C & R'). exists nc. split; [eapply result_unique; eassumption|]. split; [assumption|].
    intros l. cbn [postfix]. rewrite asteps_app, Ra. cbn [bind asteps]. rewrite asteps_app, Rb. cbn [bind asteps]. unfold astep. rewrite E1, E2, Run, O, Rn. reflexivity.
Qed.

(** the stack holds values of expressions *)
Definition represents (nb : number) (e : expr) : Prop := consistent lm nb /\ evaluates lm strtold T (map abstract regs) e (abstract nb).
Definition text (es : list expr) : list bytes := List.concat (map postfix (rev es)).
Lemma text_cons : forall e es, text (e :: es) = text es ++ postfix e.
Proof. intros. unfold text. cbn [rev]. rewrite map_app, concat_app. cbn. rewrite app_nil_r. reflexivity. Qed.

Lemma step_evaluates : forall token l l' es, Forall2 represents l es -> astep lm strtold T regs token l = Val (Continue l') ->
  exists es', Forall2 represents l' es' /\ text es' = text es ++ [token].
Proof.
  intros token l l' es F H. unfold astep in H.
  destruct (register_of token) as [i|] eqn:ER.
  { destruct (nth_error regs i) as [nb|] eqn:E; [|discriminate]. injection H as <-. apply register_inv in ER. destruct ER as [Li ->].
    exists (Register i :: es). split; [|rewrite text_cons; reflexivity]. constructor; [|assumption]. split.
    - rewrite Forall_forall in regs_ok. apply regs_ok. eapply nth_error_In; eassumption.
    - apply ev_register; [assumption|]. rewrite nth_error_map, E. reflexivity. }
  destruct (find_operator token (operators lm)) as [op|] eqn:EF.
  2: { destruct (number_from_string lm strtold token T) as [[nb|]|] eqn:ES; try discriminate. cbn [bind] in H. injection H as <-.
    destruct (string_sound token T nb ER EF ES) as [C L]. exists (Literal token :: es). split; [|rewrite text_cons; reflexivity].
    constructor; [|assumption]. split; [assumption|]. apply ev_literal. assumption. }
  assert (forall name o, token = name -> In (name, o) names1 -> exists es', Forall2 represents l' es' /\ text es' = text es ++ [token]) as O1.
  { intros name o -> I. destruct (name1_run name o T I) as (op' & f & _ & E2 & Ff & Run & Emp). rewrite EF in E2. injection E2 as <-.
    destruct l as [|a l]; [rewrite Emp in H; discriminate|]. inversion F as [|a' e l0 es0 Fa Fl]; subst. destruct Fa as [Ca Ea]. rewrite Run in H.
    apply result_inv in H; [|intros t Et; eapply op1_intn; [exact Ff|apply (consistent_int a T Ca)|exact Et]].
    destruct H as (t & nb & Et & Q & C & R). injection Q as ->. exists (Apply1 name e :: es0). split.
    - constructor; [|assumption]. split; [assumption|]. eapply ev_apply1; [eassumption|eassumption| |eassumption].
      exists f, (takum_value T a). split; [assumption|]. split; [apply casts_consistent; auto|assumption].
    - rewrite !text_cons. cbn [postfix]. rewrite app_assoc. reflexivity. }
  assert (forall name o, token = name -> In (name, o) names2 -> exists es', Forall2 represents l' es' /\ text es' = text es ++ [token]) as O2.
  { intros name o -> I. destruct (name2_run name o T I) as (op' & _ & E2 & Run & One & Emp). rewrite EF in E2. injection E2 as <-.
    destruct l as [|b [|a l]]; [rewrite Emp in H; discriminate|rewrite One in H; discriminate|]. inversion F as [|b' eb l0 es0 Fb Fl]; subst. inversion Fl as [|a' ea l1 es1 Fa Fl']; subst.
    destruct Fa as [Ca Ea], Fb as [Cb Eb]. rewrite Run in H. destruct (op2_run T o a b) as [r|] eqn:Er; [|discriminate].
    destruct (op2_run_total T o a b r Ca Cb Er) as (t & -> & It).
    apply result_inv in H; [|intros t' Et; injection Et as <-; exact It].
    destruct H as (t' & nb & Et & Q & C & R). injection Et as <-. injection Q as ->. exists (Apply2 name ea eb :: es1). split.
    - constructor; [|assumption]. split; [assumption|]. eapply ev_apply2; [eassumption|eassumption|eassumption| |eassumption].
      apply op2_run_spec; assumption.
    - rewrite !text_cons. cbn [postfix]. rewrite <- !app_assoc. reflexivity. }
  destruct (find_class lm token op EF) as [|name o G I N Q| |name b G I Q| |G Q|name T' I].
  - discriminate.
  - exact (O1 _ _ eq_refl I).
  - apply (O1 _ Precision eq_refl). in_list.
  - exact (O2 _ _ eq_refl I).
  - apply (O2 _ Power eq_refl). in_list.
  - apply (O2 _ Root eq_refl). in_list.
  - discriminate.
Qed.
Lemma run_evaluates : forall tokens l l' es, Forall2 represents l es -> asteps lm strtold T regs tokens l = Val (Continue l') ->
  exists es', Forall2 represents l' es' /\ text es' = text es ++ tokens.
Proof.
  induction tokens as [|t tokens IH]; intros l l' es F H.
  - injection H as <-. exists es. rewrite app_nil_r. auto.
  - cbn [asteps] in H. destruct (astep lm strtold T regs t l) as [[l1|l1]|] eqn:E; try discriminate. cbn [bind] in H.
    destruct (step_evaluates _ _ _ _ F E) as (es1 & F1 & Q1). destruct (IH _ _ _ F1 H) as (es2 & F2 & Q2).
    exists es2. split; [assumption|]. rewrite Q2, Q1, <- app_assoc. reflexivity.
Qed.
(** a line gives one number if and only if it is an expression with that value *)
Lemma run_iff : forall tokens, 
  (forall nb, asteps lm strtold T regs tokens [] = Val (Continue [nb]) ->
     consistent lm nb /\ exists e, tokens = postfix e /\ evaluates lm strtold T (map abstract regs) e (abstract nb)) /\
  (forall e v, tokens = postfix e -> evaluates lm strtold T (map abstract regs) e v ->
     exists nb, asteps lm strtold T regs tokens [] = Val (Continue [nb]) /\ abstract nb = v).
Proof.
  intros tokens. split.
  - intros nb H. destruct (run_evaluates tokens [] [nb] [] (Forall2_nil _) H) as (es & F & Q).
    inversion F as [|a e l0 es0 [C E] Fl]; subst. inversion Fl; subst. split; [assumption|]. exists e. split; [|assumption].
    cbn in Q. rewrite app_nil_r in Q. symmetry. exact Q.
  - intros e v -> H. destruct (evaluates_run e v H) as (nb & A & C & R). exists nb. split; [apply R|assumption].
Qed.

(** where the program can leave the defined behaviour *)
Definition safe (token : bytes) : Prop :=
  ~ In token (map fst names1) /\ ~ In token (map fst names2) \/ (kind_of T = Logarithmic /\ token <> str "abs").
Lemma names_abs : forall name, In (name, Absolute) names1 -> name = str "abs".
Proof.
  intros name H. unfold names1 in H. repeat (destruct H as [H|H]; [try discriminate; injection H as <-; reflexivity|]). destruct H.
Qed.
Definition step_good (P : bytes -> Prop) (token : bytes) (r : outcome step_result) : Prop :=
  match r with
  | UB => ~ P token
  | Val (Continue l') => Forall (consistent lm) l'
  | Val (Stop l') => Forall (consistent lm) l'
  end.
Lemma step_good_ok : forall token l, List.length regs = 26%nat -> Forall (consistent lm) l ->
  step_good safe token (astep lm strtold T regs token l).
Proof.
  intros token l L26 F. unfold astep.
  destruct (register_of token) as [i|] eqn:ER.
  { apply register_inv in ER. destruct ER as [Li _]. destruct (nth_error regs i) as [nb|] eqn:E.
    - constructor; [|assumption]. rewrite Forall_forall in regs_ok. apply regs_ok. eapply nth_error_In; eassumption.
    - apply nth_error_None in E. lia. }
  destruct (find_operator token (operators lm)) as [op|] eqn:EF.
  2: { destruct (number_from_string lm strtold token T) as [[nb|]|] eqn:ES; cbn [bind].
    - constructor; [|assumption]. apply (string_sound token T nb ER EF ES).
    - exact F.
    - exfalso. exact (string_total _ _ ES). }
  assert (forall t l0, Forall (consistent lm) l0 -> is_intn (bits_of T) t -> In token (map fst names1) \/ In token (map fst names2) -> step_good safe token (result_number T (Val t) l0)) as RN.
  { intros t l0 F0 It K. destruct (acceptable_dec (kind_of T) (bits_of T) t) as [A|A].
    - destruct (result_run T t It A) as (nb & -> & C & _). constructor; assumption.
    - destruct (number_from_spec lm T t It) as [_ N]. unfold result_number, anumber. cbn [bind]. rewrite (N A). cbn [bind step_good].
      intros [[S1 S2]|[KL _]]; [tauto|]. apply A. unfold acceptable. rewrite KL. discriminate. }
  assert (forall name o, token = name -> In (name, o) names1 -> step_good safe token (aop lm op T l)) as O1.
  { intros name o -> I. pose proof (in_keys _ _ _ I) as K. destruct (name1_run name o T I) as (op' & f & _ & E2 & Ff & Run & Emp). rewrite EF in E2. injection E2 as <-.
    destruct l as [|a l]; [rewrite Emp; constructor|]. inversion F as [|a' l0 Ca Fl]; subst. rewrite Run.
    destruct (f (takum_value T a)) as [t|] eqn:Et.
    - apply RN; [assumption| |tauto]. eapply op1_intn; [exact Ff|apply (consistent_int a T Ca)|exact Et].
    - cbn. intros [[S1 S2]|[_ N]]; [tauto|]. assert (o <> Absolute) as No by (intros ->; apply N, names_abs, I).
      destruct (op1_total T o f _ Ff (consistent_int a T Ca) No) as (t & Q & _). congruence. }
  assert (forall name o, token = name -> In (name, o) names2 -> step_good safe token (aop lm op T l)) as O2.
  { intros name o -> I. pose proof (in_keys _ _ _ I) as K. destruct (name2_run name o T I) as (op' & _ & E2 & Run & One & Emp). rewrite EF in E2. injection E2 as <-.
    destruct l as [|b [|a l]]; [rewrite Emp; constructor|rewrite One; constructor|]. inversion F as [|b' l0 Cb Fl]; subst. inversion Fl as [|a' l1 Ca Fl']; subst.
    rewrite Run. destruct (op2_run T o a b) as [r|] eqn:Er; [|exact Fl'].
    destruct (op2_run_total T o a b r Ca Cb Er) as (t & -> & It). apply RN; tauto. }
  destruct (find_class lm token op EF) as [|name o G I N Q| |name b G I Q| |G Q|name T' I].
  - exact F.
  - exact (O1 _ _ eq_refl I).
  - apply (O1 _ Precision eq_refl). in_list.
  - exact (O2 _ _ eq_refl I).
  - apply (O2 _ Power eq_refl). in_list.
  - apply (O2 _ Root eq_refl). in_list.
  - exact F.
Qed.
Lemma steps_good : forall tokens l, List.length regs = 26%nat -> Forall (consistent lm) l ->
  match asteps lm strtold T regs tokens l with
  | UB => ~ Forall safe tokens
  | Val (Continue l') => Forall (consistent lm) l'
  | Val (Stop l') => Forall (consistent lm) l'
  end.
Proof.
  induction tokens as [|t tokens IH]; intros l L26 F; [exact F|]. cbn [asteps].
  pose proof (step_good_ok t l L26 F) as G. destruct (astep lm strtold T regs t l) as [[l'|l']|]; cbn [bind step_good] in *.
  - specialize (IH l' L26 G). destruct (asteps lm strtold T regs tokens l') as [[l2|l2]|]; try assumption. intros H. inversion H. contradiction.
  - exact G.
  - intros H. inversion H. contradiction.
Qed.
End Eval.
