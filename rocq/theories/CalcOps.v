(** Facts about the table of operators of the calculator. *)
From Coq Require Import ZArith List Bool Ascii String Reals Lia Lra.
From Flocq Require Import Core.Core IEEE754.BinarySingleNaN.
From Verif Require Import CModel FloatModel Libm Spec WidthConv WidthApi LogApi LinApi Conversion Arith Wrappers WrapApi Calculator CalcSpec CalcFacts.
Import ListNotations.
Local Open Scope Z_scope.

Section Ops.
Variable lm : libm.

Lemma byte_eqb_eq : forall a b, byte_eqb a b = true <-> a = b.
Proof. intros a b. unfold byte_eqb. destruct (list_eq_dec ascii_dec a b); split; congruence. Qed.
Lemma byte_eqb_neq : forall a b, byte_eqb a b = false <-> a <> b.
Proof. intros a b. unfold byte_eqb. destruct (list_eq_dec ascii_dec a b); split; congruence. Qed.

Lemma find_in : forall l token op, find_operator token l = Some op -> In (token, op) l.
Proof.
  induction l as [|[name o] l IH]; intros token op H; [discriminate|]. cbn [find_operator] in H.
  destruct (byte_eqb token name) eqn:E.
  - injection H as <-. apply byte_eqb_eq in E. subst. left. reflexivity.
  - right. apply IH. assumption.
Qed.
Lemma find_none : forall l token, find_operator token l = None <-> ~ In token (map fst l).
Proof.
  induction l as [|[name o] l IH]; intros token; [cbn; tauto|]. cbn [find_operator map fst In].
  destruct (byte_eqb token name) eqn:E.
  - apply byte_eqb_eq in E. subst. split; [discriminate|]. intros H. exfalso. apply H. left. reflexivity.
  - apply byte_eqb_neq in E. rewrite IH. split; intros H; [intros [X|X]; [congruence|tauto]|tauto].
Qed.
Fixpoint distinct (l : list bytes) : bool :=
  match l with [] => true | x :: l' => negb (existsb (byte_eqb x) l') && distinct l' end.
Lemma distinct_nodup : forall l, distinct l = true -> NoDup l.
Proof.
  induction l as [|x l IH]; intros H; [constructor|]. cbn in H. apply andb_true_iff in H. destruct H as [H1 H2]. constructor; [|auto].
  intros I. apply negb_true_iff in H1. rewrite <- not_true_iff_false in H1. apply H1. apply existsb_exists. exists x. split; [assumption|]. apply byte_eqb_eq. reflexivity.
Qed.
Lemma subset_incl : forall l l', forallb (fun x => existsb (byte_eqb x) l') l = true -> forall x, In x l -> In x l'.
Proof.
  intros l l' H x I. rewrite forallb_forall in H. specialize (H x I). apply existsb_exists in H. destruct H as (y & Iy & E). apply byte_eqb_eq in E. subst. assumption.
Qed.

Lemma reserved_nodup : NoDup reserved.
Proof. apply distinct_nodup. vm_compute. reflexivity. Qed.
Lemma names_reserved : forall x, In x (map fst (operators lm)) <-> In x reserved.
Proof. intros x. split; apply subset_incl; vm_compute; reflexivity. Qed.

(** what an entry of the table is *)
Inductive op_class : bytes -> operator_type -> Prop :=
| c_help : op_class (str "?") HELP
| c_op1 : forall name o F, In (name, o) names1 -> o <> Precision ->
    (forall T, op1_function lm T o (F T)) -> op_class name (TAKUM_TAKUM F)
| c_precision : op_class (str "precision") PRECISION
| c_op2 : forall name b F, In (name, Two b) names2 ->
    (forall T, F T = api_binary (kind_of T) lm b (width_of T)) -> op_class name (TAKUM_TAKUM_TAKUM F)
| c_power : op_class (str "^") POWER
| c_root : forall F, (forall T, F T = api_root (kind_of T) lm (width_of T)) ->
    op_class (str "root") (TAKUM_INT64_TAKUM F)
| c_type : forall name T, In (name, T) types -> op_class name (SWITCH_TAKUM_TYPE T).

Ltac in_list := first [left; reflexivity | right; in_list].
Ltac op1f := intros T; destruct T; cbn [functions];
  first [ apply (op_fun lm TAKUM8) | apply (op_fun lm TAKUM16) | apply (op_fun lm TAKUM32) | apply (op_fun lm TAKUM64)
        | apply (op_fun lm TAKUM_LINEAR8) | apply (op_fun lm TAKUM_LINEAR16) | apply (op_fun lm TAKUM_LINEAR32) | apply (op_fun lm TAKUM_LINEAR64)
        | apply op_abs; constructor | apply op_inv_log; [reflexivity|constructor] | apply op_inv_lin; [reflexivity|constructor]
        | apply op_sqrt_log; [reflexivity|constructor] | apply op_sqrt_lin; [reflexivity|constructor]
        | apply op_sign; constructor ].
Lemma operators_class : Forall (fun p => op_class (fst p) (snd p)) (operators lm).
Proof.
  unfold operators. repeat (constructor; [cbn [fst snd]|]); [..|constructor].
  all: try (first [apply c_help|apply c_precision|apply c_power]).
  all: try (apply c_type; in_list).
  all: try (apply c_root; intros T; destruct T; reflexivity).
  all: try (eapply c_op2; [in_list|]; intros T; destruct T; reflexivity).
  all: eapply c_op1; [in_list|discriminate|op1f].
Qed.

(** the functions of the API are determined by their names *)
Lemma widening_det : forall k n m f g, widening k n m f -> widening k n m g -> f = g /\ n < m.
Proof. intros k n m f g []; inversion 1; (split; [reflexivity|lia]). Qed.
Lemma narrowing_det : forall k n m f g, narrowing k n m f -> narrowing k n m g -> f = g /\ m < n.
Proof. intros k n m f g []; inversion 1; (split; [reflexivity|lia]). Qed.
Lemma log_to_linear_det : forall n m f g, log_to_linear lm n m f -> log_to_linear lm n m g -> f = g.
Proof. intros n m f g []; inversion 1; reflexivity. Qed.
Lemma linear_to_log_det : forall n m f g, linear_to_log lm n m f -> linear_to_log lm n m g -> f = g.
Proof. intros n m f g []; inversion 1; reflexivity. Qed.
Lemma cast_det : forall T T' f g, cast_function lm T T' f -> cast_function lm T T' g -> f = g.
Proof.
  intros T T' f g H G.
  destruct H as [T|T T' f K W|T T' f K W|T T' f K K' W|T T' f K K' W].
  - inversion G; try reflexivity; try congruence.
    + pose proof (widening_det _ _ _ _ _ H0 H0). lia.
    + pose proof (narrowing_det _ _ _ _ _ H0 H0). lia.
  - inversion G; subst; try congruence.
    + pose proof (widening_det _ _ _ _ _ W W). lia.
    + exact (proj1 (widening_det _ _ _ _ _ W H0)).
    + pose proof (widening_det _ _ _ _ _ W W). pose proof (narrowing_det _ _ _ _ _ H0 H0). lia.
  - inversion G; subst; try congruence.
    + pose proof (narrowing_det _ _ _ _ _ W W). lia.
    + pose proof (narrowing_det _ _ _ _ _ W W). pose proof (widening_det _ _ _ _ _ H0 H0). lia.
    + exact (proj1 (narrowing_det _ _ _ _ _ W H0)).
  - inversion G; subst; try congruence. eapply log_to_linear_det; eassumption.
  - inversion G; subst; try congruence. eapply linear_to_log_det; eassumption.
Qed.
Lemma from_float_view : forall k n F f, from_float lm k n F f ->
  match F return (flt F -> outcome Z) -> Prop with
  | f80 => fun h => forall T, kind_of T = k -> bits_of T = n -> h = from_extended_float lm T
  | _ => fun _ => True
  end f.
Proof.
  intros k n F f H. destruct H as [n F f H|n F f H]; destruct H; try exact Logic.I; intros T K B; destruct T; try discriminate K; try discriminate B; reflexivity.
Qed.
Lemma from_float_det : forall T f, from_float lm (kind_of T) (bits_of T) f80 f -> f = from_extended_float lm T.
Proof. intros T f H. exact (from_float_view _ _ _ _ H T eq_refl eq_refl). Qed.
Lemma from_float_ext : forall T, from_float lm (kind_of T) (bits_of T) f80 (from_extended_float lm T).
Proof. intros T. destruct T; first [apply from_float_log; constructor|apply from_float_lin; constructor]. Qed.
Lemma precision_det : forall T p, precision_function (kind_of T) (bits_of T) p -> p = precision T.
Proof. intros T p H. destruct T; cbn [kind_of bits_of width_of bits] in H; inversion H; reflexivity. Qed.
Lemma precision_fun : forall T, precision_function (kind_of T) (bits_of T) (precision T).
Proof. intros T. destruct T; constructor. Qed.
Lemma op1_det : forall T o f g, op1_function lm T o f -> op1_function lm T o g -> f = g.
Proof.
  intros T o f g H G. destruct H.
  - inversion G. reflexivity.
  - inversion G as [|g' G'| | | | | |]; subst. destruct T; cbn [kind_of bits_of width_of bits] in *; inversion H; inversion G'; reflexivity.
  - inversion G as [| |g' K G'|g' K G'| | | |]; subst; try congruence. destruct T; try discriminate; cbn [kind_of bits_of width_of bits] in *; inversion H0; inversion G'; reflexivity.
  - inversion G as [| |g' K G'|g' K G'| | | |]; subst; try congruence. destruct T; try discriminate; cbn [kind_of bits_of width_of bits] in *; inversion H0; inversion G'; reflexivity.
  - inversion G as [| | | |g' K G'|g' K G'| |]; subst; try congruence. destruct T; try discriminate; cbn [kind_of bits_of width_of bits] in *; inversion H0; inversion G'; reflexivity.
  - inversion G as [| | | |g' K G'|g' K G'| |]; subst; try congruence. destruct T; try discriminate; cbn [kind_of bits_of width_of bits] in *; inversion H0; inversion G'; reflexivity.
  - inversion G as [| | | | | |g' G'|]; subst. destruct T; cbn [kind_of bits_of width_of bits] in *; inversion H; inversion G'; reflexivity.
  - inversion G as [| | | | | | |p' g' P' G']; subst. rewrite (precision_det T _ H), (precision_det T _ P'), (from_float_det T _ H0), (from_float_det T _ G'). reflexivity.
Qed.

Lemma keys_nodup : forall {A} (l : list (bytes * A)) x a b, NoDup (map fst l) -> In (x, a) l -> In (x, b) l -> a = b.
Proof.
  induction l as [|[y c] l IH]; intros x a b N Ha Hb; [destruct Ha|]. cbn [map fst] in N. inversion N as [|? ? N1 N2]; subst.
  destruct Ha as [Ha|Ha], Hb as [Hb|Hb].
  - congruence.
  - injection Ha as -> ->. exfalso. apply N1. apply in_map_iff. exists (x, b). auto.
  - injection Hb as -> ->. exfalso. apply N1. apply in_map_iff. exists (x, a). auto.
  - eapply IH; eassumption.
Qed.
Lemma in_keys : forall {A} (l : list (bytes * A)) x a, In (x, a) l -> In x (map fst l).
Proof. intros A l x a H. apply in_map_iff. exists (x, a). auto. Qed.
Lemma disjoint_b : forall l l', forallb (fun x => negb (existsb (byte_eqb x) l')) l = true -> forall x, In x l -> ~ In x l'.
Proof.
  intros l l' H x I J. rewrite forallb_forall in H. specialize (H x I). apply negb_true_iff in H. rewrite <- not_true_iff_false in H. apply H.
  apply existsb_exists. exists x. split; [assumption|]. apply byte_eqb_eq. reflexivity.
Qed.
Lemma nodup1 : NoDup (map fst names1). Proof. apply distinct_nodup. vm_compute. reflexivity. Qed.
Lemma nodup2 : NoDup (map fst names2). Proof. apply distinct_nodup. vm_compute. reflexivity. Qed.
Lemma nodup3 : NoDup (map fst types). Proof. apply distinct_nodup. vm_compute. reflexivity. Qed.
Lemma disj12 : forall x, In x (map fst names1) -> ~ In x (map fst names2).
Proof. apply disjoint_b. vm_compute. reflexivity. Qed.
Lemma disj1 : forall x, In x (map fst names1) -> ~ In x (str "?" :: map fst types).
Proof. apply disjoint_b. vm_compute. reflexivity. Qed.
Lemma disj2 : forall x, In x (map fst names2) -> ~ In x (str "?" :: map fst types).
Proof. apply disjoint_b. vm_compute. reflexivity. Qed.

(** how the table answers *)
Lemma find_class : forall token op, find_operator token (operators lm) = Some op -> op_class token op.
Proof.
  intros token op H. apply find_in in H. pose proof operators_class as C. rewrite Forall_forall in C. exact (C _ H).
Qed.
Lemma find_reserved : forall token, In token reserved -> exists op, find_operator token (operators lm) = Some op /\ op_class token op.
Proof.
  intros token H. destruct (find_operator token (operators lm)) as [op|] eqn:E; [exists op; split; [reflexivity|apply find_class; assumption]|].
  exfalso. apply find_none in E. apply E, names_reserved, H.
Qed.
Lemma find_op1 : forall name o, In (name, o) names1 ->
  (o = Precision /\ find_operator name (operators lm) = Some PRECISION) \/
  (o <> Precision /\ exists F, find_operator name (operators lm) = Some (TAKUM_TAKUM F) /\ forall T, op1_function lm T o (F T)).
Proof.
  intros name o H. pose proof (in_keys _ _ _ H) as K.
  destruct (find_reserved name) as (op & E & C). { unfold reserved. right. apply in_or_app. left. assumption. }
  rewrite E. destruct C as [|name o' F I N Q| |name b F I Q| |F Q|name T I].
  - exfalso. apply (disj1 _ K). left. reflexivity.
  - right. rewrite (keys_nodup names1 name o o' nodup1 H I). split; [assumption|]. exists F. auto.
  - left. split; [|reflexivity]. apply (keys_nodup names1 (str "precision") o Precision nodup1 H). in_list.
  - exfalso. apply (disj12 _ K). eapply in_keys; eassumption.
  - exfalso. apply (disj12 _ K). apply (in_keys names2 _ Power). in_list.
  - exfalso. apply (disj12 _ K). apply (in_keys names2 _ Root). in_list.
  - exfalso. apply (disj1 _ K). right. eapply in_keys; eassumption.
Qed.
Lemma find_op2 : forall name o, In (name, o) names2 ->
  match o with
  | Two b => exists F, find_operator name (operators lm) = Some (TAKUM_TAKUM_TAKUM F) /\
      forall T, F T = api_binary (kind_of T) lm b (width_of T)
  | Power => find_operator name (operators lm) = Some POWER
  | Root => exists F, find_operator name (operators lm) = Some (TAKUM_INT64_TAKUM F) /\
      forall T, F T = api_root (kind_of T) lm (width_of T)
  end.
Proof.
  intros name o H. pose proof (in_keys _ _ _ H) as K.
  destruct (find_reserved name) as (op & E & C). { unfold reserved. right. apply in_or_app. right. apply in_or_app. left. assumption. }
  rewrite E. destruct C as [|name o' F I N Q| |name b F I Q| |F Q|name T I].
  - exfalso. apply (disj2 _ K). left. reflexivity.
  - exfalso. apply (disj12 name); [eapply in_keys; eassumption|assumption].
  - exfalso. apply (disj12 (str "precision")); [|assumption]. apply (in_keys names1 _ Precision). in_list.
  - rewrite (keys_nodup names2 name o (Two b) nodup2 H I). exists F. auto.
  - rewrite (keys_nodup names2 (str "^") o Power nodup2 H); [reflexivity|in_list].
  - rewrite (keys_nodup names2 (str "root") o Root nodup2 H); [exists F; auto|in_list].
  - exfalso. apply (disj2 _ K). right. eapply in_keys; eassumption.
Qed.

(** registers *)
Lemma register_letter : forall i, (i < 26)%nat -> register_of (letter i) = Some i.
Proof. intros i H. do 26 (destruct i as [|i]; [reflexivity|]). lia. Qed.
Lemma register_inv : forall token i, register_of token = Some i -> (i < 26)%nat /\ token = letter i.
Proof.
  intros token i H. destruct token as [|c [|c' token]]; try discriminate H. cbn [register_of] in H.
  destruct (((97 <=? N_of_ascii c) && (N_of_ascii c <=? 122))%N) eqn:B; [|discriminate H].
  apply andb_true_iff in B. destruct B as [B1 B2]. apply N.leb_le in B1, B2. injection H as <-. split; [lia|].
  unfold letter. f_equal. rewrite <- (ascii_N_embedding c) at 1. unfold ascii_of_nat. f_equal. lia.
Qed.
Lemma letter_not_reserved : forall token, is_letter token -> ~ In token reserved.
Proof.
  intros token (i & Hi & ->) H.
  assert (forallb (fun x => match register_of x with Some _ => false | None => true end) reserved = true) as Q by (vm_compute; reflexivity).
  rewrite forallb_forall in Q. specialize (Q _ H). rewrite (register_letter i Hi) in Q. discriminate Q.
Qed.
End Ops.
