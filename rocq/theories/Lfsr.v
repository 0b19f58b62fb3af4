(** Linear maps of bit vectors, their powers and the orders of their orbits
    (for C138). *)
From Coq Require Import ZArith Znumtheory List Bool Lia Arith.
Import ListNotations.
Local Open Scope Z_scope.

(** ** Iterations *)
Lemma iter_S : forall A (f : A -> A) a x, Nat.iter (S a) f x = f (Nat.iter a f x).
Proof. reflexivity. Qed.
Lemma iter_plus : forall A (f : A -> A) a b x, Nat.iter (a + b) f x = Nat.iter a f (Nat.iter b f x).
Proof. intros A f a b x. induction a as [|a IH]; [reflexivity|]. rewrite Nat.add_succ_l, !iter_S, IH. reflexivity. Qed.
Lemma iter_swap : forall A (f : A -> A) a x, Nat.iter a f (f x) = f (Nat.iter a f x).
Proof. intros A f a x. induction a as [|a IH]; [reflexivity|]. rewrite !iter_S, IH. reflexivity. Qed.
Lemma iter_fixed : forall A (f : A -> A) d x k, Nat.iter d f x = x -> Nat.iter (k * d) f x = x.
Proof. intros A f d x k H. induction k as [|k IH]; [reflexivity|]. cbn [Nat.mul]. rewrite iter_plus, IH. assumption. Qed.
Lemma iter_gcd : forall A (f : A -> A) d e x, d <> 0%nat -> Nat.iter d f x = x -> Nat.iter e f x = x -> Nat.iter (Nat.gcd d e) f x = x.
Proof.
  intros A f d e x D Hd He. destruct (Nat.gcd_bezout_pos d e ltac:(lia)) as (a & b & E).
  rewrite <- (iter_fixed A f e x b He) at 1. rewrite <- iter_plus, <- E. apply iter_fixed. assumption.
Qed.

(** an orbit whose length divides N and none of N/p for the primes p | N *)
Fixpoint prime_factors (N : Z) (l : list Z) : Prop :=
  match l with
  | [] => N = 1
  | p :: l => prime p /\ exists M, N = p * M /\ prime_factors M l
  end.
Lemma factor_common : forall l N q, prime_factors N l -> (q | N) -> 1 < q -> exists p, In p l /\ (p | q).
Proof.
  induction l as [|p l IH]; intros N q H D Q.
  - cbn in H. subst N. apply Z.divide_1_r_nonneg in D; lia.
  - destruct H as (P & M & -> & H). destruct (Zdivide_dec p q) as [K|K]; [exists p; split; [left; reflexivity|assumption]|].
    assert (rel_prime q p) as R by (apply rel_prime_sym; apply prime_rel_prime; assumption).
    destruct (IH M q H (Gauss q p M D R) Q) as (r & I & Dr). exists r. split; [right|]; assumption.
Qed.
Lemma factor_divides : forall l N p, prime_factors N l -> In p l -> (p | N) /\ 1 < p.
Proof.
  induction l as [|a l IH]; intros N p H I; [destruct I|]. destruct H as (P & M & -> & H). destruct I as [-> |I].
  - split; [exists M; ring|apply prime_ge_2 in P; lia].
  - destruct (IH M p H I) as [D L]. split; [apply Z.divide_mul_r; assumption|assumption].
Qed.
Lemma orbit_length : forall (f : Z -> Z) v (N : Z) l, 0 < N -> prime_factors N l -> Nat.iter (Z.to_nat N) f v = v ->
  (forall p, In p l -> Nat.iter (Z.to_nat (N / p)) f v <> v) -> forall d, (0 < d)%nat -> (Z.of_nat d < N)%Z -> Nat.iter d f v <> v.
Proof.
  intros f v N l PN F HN Hp d D L H. set (g := Nat.gcd d (Z.to_nat N)).
  assert (Nat.iter g f v = v) as Hg by (apply iter_gcd; [lia|assumption|assumption]).
  assert (g <> 0)%nat as G0 by (intros K; apply Nat.gcd_eq_0_l in K; lia).
  destruct (Nat.gcd_divide_r d (Z.to_nat N)) as [q Eq]. fold g in Eq. assert (g <= d)%nat as Gd by (apply Nat.divide_pos_le; [assumption|apply Nat.gcd_divide_l]).
  assert (N = Z.of_nat q * Z.of_nat g)%Z as EN by lia.
  assert (1 < Z.of_nat q)%Z as Q1 by nia.
  destruct (factor_common l N (Z.of_nat q) F ltac:(exists (Z.of_nat g); lia) Q1) as (p & I & [m Em]).
  destruct (factor_divides l N p F I) as [_ P1]. apply (Hp p I).
  assert (N / p = m * Z.of_nat g) as E by (rewrite EN, Em; replace (m * p * Z.of_nat g) with (m * Z.of_nat g * p) by ring; apply Z.div_mul; lia).
  rewrite E, Z2Nat.inj_mul, Nat2Z.id by nia. apply iter_fixed. assumption.
Qed.

(** ** Primes *)
Fixpoint no_divisor (p : Z) (d : Z) (fuel : nat) : bool :=
  match fuel with
  | O => true
  | S fuel => negb (p mod d =? 0) && no_divisor p (d + 1) fuel
  end.
Lemma no_divisor_sound : forall p fuel d, no_divisor p d fuel = true -> 0 < d -> forall e, d <= e < d + Z.of_nat fuel -> ~ (e | p).
Proof.
  intros p fuel. induction fuel as [|fuel IH]; intros d H D e He K; [lia|]. cbn in H. apply andb_prop in H. destruct H as [H1 H2].
  destruct (Z.eq_dec e d) as [-> |N].
  - apply negb_true_iff, Z.eqb_neq in H1. apply H1. apply Z.mod_divide; [lia|assumption].
  - exact (IH (d + 1) H2 ltac:(lia) e ltac:(lia) K).
Qed.
Lemma prime_check : forall p fuel, 1 < p -> p < (Z.of_nat fuel + 2) * (Z.of_nat fuel + 2) -> no_divisor p 2 fuel = true -> (p <=? Z.of_nat fuel + 1) = false -> prime p.
Proof.
  intros p fuel P1 P2 H B. apply Z.leb_gt in B. apply prime_alt. split; [assumption|]. intros n Hn [m Em].
  destruct (Z_lt_le_dec n (Z.of_nat fuel + 2)) as [K|K].
  - apply (no_divisor_sound p fuel 2 H ltac:(lia) n ltac:(lia)). exists m. assumption.
  - assert (1 < m < Z.of_nat fuel + 2) by nia. apply (no_divisor_sound p fuel 2 H ltac:(lia) m ltac:(lia)). exists n. lia.
Qed.

(** ** Linear maps as lists of the images of 2^0, 2^1, … *)
Definition additive (f : Z -> Z) : Prop := forall a b, f (Z.lxor a b) = Z.lxor (f a) (f b).
Lemma additive_0 : forall f, additive f -> f 0 = 0.
Proof. intros f H. pose proof (H 0 0) as E. rewrite Z.lxor_nilpotent in E. rewrite E. apply Z.lxor_nilpotent. Qed.
Lemma additive_iter : forall f k, additive f -> additive (Nat.iter k f).
Proof. intros f k H. induction k as [|k IH]; intros a b; [reflexivity|]. rewrite !iter_S, IH, H. reflexivity. Qed.
Lemma additive_plus_id : forall f, additive f -> additive (fun v => Z.lxor (f v) v).
Proof. intros f H a b. rewrite H. rewrite !Z.lxor_assoc. f_equal. rewrite <- !Z.lxor_assoc. f_equal. apply Z.lxor_comm. Qed.

Fixpoint apply (m : list Z) (v : Z) : Z :=
  match m with
  | [] => 0
  | c :: m => Z.lxor (if Z.odd v then c else 0) (apply m (Z.div2 v))
  end.
Fixpoint columns (f : Z -> Z) (i : Z) (n : nat) : list Z :=
  match n with O => [] | S n => f (2 ^ i) :: columns f (i + 1) n end.
Definition product (a b : list Z) : list Z := map (apply a) b.
Fixpoint power (a : list Z) (p : positive) : list Z :=
  match p with
  | xH => a
  | xO p => let b := power a p in product b b
  | xI p => let b := power a p in product a (product b b)
  end.

Lemma split_bit : forall v, 0 <= v -> v = Z.lxor (Z.b2z (Z.odd v)) (2 * Z.div2 v).
Proof.
  intros v Hv. rewrite <- Z.add_nocarry_lxor.
  - pose proof (Z.div2_odd v). lia.
  - apply Z.bits_inj'. intros i Hi. rewrite Z.land_spec, Z.bits_0. destruct (Z.eq_dec i 0) as [-> |N].
    + rewrite (Z.testbit_even_0 (Z.div2 v)). apply andb_false_r.
    + destruct (Z.odd v); cbn [Z.b2z]; [|rewrite Z.bits_0; reflexivity]. rewrite (Z.bits_above_log2 1 i) by (cbn; lia). reflexivity.
Qed.
Lemma apply_columns : forall f, additive f -> forall n i v, 0 <= i -> 0 <= v < 2 ^ Z.of_nat n -> apply (columns f i n) v = f (v * 2 ^ i).
Proof.
  intros f A n. induction n as [|n IH]; intros i v Hi Hv.
  - cbn in Hv. assert (v = 0) as -> by lia. cbn. symmetry. apply additive_0. assumption.
  - cbn [columns apply]. rewrite Nat2Z.inj_succ, Z.pow_succ_r in Hv by lia.
    pose proof (Z.div2_odd v) as E. destruct (Z.odd v) eqn:O; cbn [Z.b2z] in E.
    + rewrite IH by lia. rewrite <- A. f_equal. rewrite Z.pow_add_r by lia. change (2 ^ 1) with 2.
      rewrite (split_bit v) at 2 by lia. rewrite O. cbn [Z.b2z]. rewrite <- !Z.shiftl_mul_pow2, Z.shiftl_lxor by lia. f_equal; [rewrite Z.shiftl_1_l; reflexivity|]. rewrite !Z.shiftl_mul_pow2 by lia. ring.
    + rewrite IH by lia. rewrite Z.lxor_0_l. f_equal. rewrite Z.pow_add_r by lia. change (2 ^ 1) with 2. nia.
Qed.
Lemma columns_ext : forall f g n i, 0 <= i -> (forall j, i <= j < i + Z.of_nat n -> f (2 ^ j) = g (2 ^ j)) -> columns f i n = columns g i n.
Proof. intros f g n. induction n as [|n IH]; intros i Hi H; [reflexivity|]. cbn. f_equal; [apply H; lia|]. apply IH; [lia|]. intros j Hj. apply H. lia. Qed.
Lemma product_columns : forall f g n m i, 0 <= i -> additive f -> (forall j, i <= j < i + Z.of_nat m -> 0 <= g (2 ^ j) < 2 ^ Z.of_nat n) -> product (columns f 0 n) (columns g i m) = columns (fun v => f (g v)) i m.
Proof.
  intros f g n m. induction m as [|m IH]; intros i Hi A H; [reflexivity|]. cbn [columns product map]. f_equal.
  - rewrite apply_columns by (assumption || lia || (apply H; lia)). f_equal. ring.
  - apply IH; [lia|assumption|]. intros j Hj. apply H. lia.
Qed.

(** maps of bit vectors of n bits to themselves *)
Definition closed (n : nat) (f : Z -> Z) : Prop := forall v, 0 <= v < 2 ^ Z.of_nat n -> 0 <= f v < 2 ^ Z.of_nat n.
Lemma closed_iter : forall n f k, closed n f -> closed n (Nat.iter k f).
Proof. intros n f k H. induction k as [|k IH]; intros v Hv; [assumption|]. rewrite iter_S. apply H, IH, Hv. Qed.
Lemma pow2_range : forall n j, 0 <= j < 0 + Z.of_nat n -> 0 <= 2 ^ j < 2 ^ Z.of_nat n.
Proof. intros n j H. split; [apply Z.pow_nonneg; lia|apply Z.pow_lt_mono_r; lia]. Qed.
Lemma power_columns : forall n f p, additive f -> closed n f -> power (columns f 0 n) p = columns (Nat.iter (Pos.to_nat p) f) 0 n.
Proof.
  intros n f p A C. induction p as [p IH|p IH|]; cbn [power].
  - rewrite IH. rewrite product_columns; [|lia|apply additive_iter; assumption|intros j Hj; apply (closed_iter n f _ C); apply pow2_range; assumption].
    rewrite product_columns; [|lia|assumption|intros j Hj; apply (closed_iter n f _ C), (closed_iter n f _ C); apply pow2_range; assumption].
    apply columns_ext; [lia|]. intros j Hj. rewrite Pos2Nat.inj_xI. cbn [Nat.mul]. rewrite Nat.add_0_r, iter_S, iter_plus. reflexivity.
  - rewrite IH. rewrite product_columns; [|lia|apply additive_iter; assumption|intros j Hj; apply (closed_iter n f _ C); apply pow2_range; assumption].
    apply columns_ext; [lia|]. intros j Hj. rewrite Pos2Nat.inj_xO. cbn [Nat.mul]. rewrite Nat.add_0_r, iter_plus. reflexivity.
  - reflexivity.
Qed.
Definition identity (n : nat) : list Z := columns (fun v => v) 0 n.
Lemma power_identity : forall n f p v, additive f -> closed n f -> power (columns f 0 n) p = identity n -> 0 <= v < 2 ^ Z.of_nat n -> Nat.iter (Pos.to_nat p) f v = v.
Proof.
  intros n f p v A C H Hv. rewrite power_columns in H by assumption. pose proof (apply_columns _ (additive_iter f (Pos.to_nat p) A) n 0 v ltac:(lia) Hv) as E.
  rewrite H in E. unfold identity in E. rewrite (apply_columns (fun v => v)) in E by (assumption || lia || (intros a b; reflexivity)). rewrite Z.pow_0_r, Z.mul_1_r in E. symmetry. assumption.
Qed.
Definition plus_identity (n : nat) (m : list Z) : list Z := map (fun c => Z.lxor (fst c) (snd c)) (combine m (identity n)).
Lemma plus_identity_columns : forall f n i, map (fun c => Z.lxor (fst c) (snd c)) (combine (columns f i n) (columns (fun v => v) i n)) = columns (fun v => Z.lxor (f v) v) i n.
Proof. intros f n. induction n as [|n IH]; intros i; [reflexivity|]. cbn. f_equal. apply IH. Qed.
Lemma lxor_range : forall n a b, 0 <= n -> 0 <= a < 2 ^ n -> 0 <= b < 2 ^ n -> 0 <= Z.lxor a b < 2 ^ n.
Proof.
  intros n a b Hn Ha Hb. assert (0 <= Z.lxor a b) as P by (apply Z.lxor_nonneg; lia). split; [assumption|].
  destruct (Z.eq_dec (Z.lxor a b) 0) as [-> |N]; [apply Z.pow_pos_nonneg; lia|]. apply Z.log2_lt_pow2; [lia|].
  eapply Z.le_lt_trans; [apply Z.log2_lxor; lia|]. apply Z.max_lub_lt.
  - destruct (Z.eq_dec a 0) as [-> |Na]; [destruct (Z.eq_dec n 0) as [-> |]; [exfalso; apply N; assert (b = 0) as -> by (cbn in Hb; lia); reflexivity|cbn; lia]|apply Z.log2_lt_pow2; lia].
  - destruct (Z.eq_dec b 0) as [-> |Na]; [destruct (Z.eq_dec n 0) as [-> |]; [exfalso; apply N; assert (a = 0) as -> by (cbn in Ha; lia); reflexivity|cbn; lia]|apply Z.log2_lt_pow2; lia].
Qed.
(** f^k has no fixed point but 0 if a power of f^k + 1 is the identity *)
Lemma power_no_fixed : forall n f k p v, additive f -> closed n f -> power (plus_identity n (power (columns f 0 n) k)) p = identity n -> 0 <= v < 2 ^ Z.of_nat n -> v <> 0 -> Nat.iter (Pos.to_nat k) f v <> v.
Proof.
  intros n f k p v A C H Hv Nv E. rewrite power_columns in H by assumption. unfold plus_identity, identity in H. rewrite plus_identity_columns in H. fold (identity n) in H.
  set (g := fun v => Z.lxor (Nat.iter (Pos.to_nat k) f v) v) in *. assert (additive g) as Ag by (apply additive_plus_id, additive_iter; assumption).
  assert (closed n g) as Cg by (intros u Hu; apply lxor_range; [lia|apply (closed_iter n f _ C); assumption|assumption]).
  pose proof (power_identity n g p v Ag Cg H Hv) as K. assert (g v = 0) as G0 by (unfold g; rewrite E; apply Z.lxor_nilpotent).
  destruct (Pos2Nat.is_succ p) as [m Em]. rewrite Em, iter_S, <- iter_swap, G0 in K.
  rewrite (additive_0 _ (additive_iter g m Ag)) in K. lia.
Qed.

Lemma NoDup_map_inj : forall A B (f : A -> B) l, (forall x y, In x l -> In y l -> f x = f y -> x = y) -> NoDup l -> NoDup (map f l).
Proof.
  intros A B f l. induction l as [|a l IH]; intros H D; [constructor|]. inversion D; subst. cbn. constructor.
  - intros K. apply in_map_iff in K. destruct K as (x & E & I). apply (H x a) in E; [subst; contradiction|right; assumption|left; reflexivity].
  - apply IH; [|assumption]. intros x y Hx Hy. apply H; right; assumption.
Qed.

(** ** Orbits that are as long as possible *)
Lemma full_orbit : forall n f N l, additive f -> closed n f -> Z.pos N = 2 ^ Z.of_nat n - 1 -> prime_factors (Z.pos N) l ->
  power (columns f 0 n) N = identity n ->
  Forall (fun p => power (plus_identity n (power (columns f 0 n) (Z.to_pos (Z.pos N / p)))) N = identity n) l ->
  forall v, 0 < v < 2 ^ Z.of_nat n ->
    Nat.iter (Pos.to_nat N) f v = v /\
    (forall i j, (i < Pos.to_nat N)%nat -> (j < Pos.to_nat N)%nat -> Nat.iter i f v = Nat.iter j f v -> i = j) /\
    (forall u, 0 < u < 2 ^ Z.of_nat n -> exists i, (i < Pos.to_nat N)%nat /\ Nat.iter i f v = u).
Proof.
  intros n f N l A C EN F HN HF v Hv. assert (forall u, 0 < u < 2 ^ Z.of_nat n -> Nat.iter (Pos.to_nat N) f u = u) as HI by (intros u Hu; apply (power_identity n f N u A C HN); lia).
  assert (forall u, 0 < u < 2 ^ Z.of_nat n -> forall d, (0 < d)%nat -> (d < Pos.to_nat N)%nat -> Nat.iter d f u <> u) as HD.
  { intros u Hu d D L. apply (orbit_length f u (Z.pos N) l ltac:(lia) F); [rewrite Z2Nat.inj_pos; apply HI; assumption| |assumption|lia].
    intros p I. destruct (factor_divides l _ p F I) as [[m Em] P1]. assert (0 < m) as Pm by nia.
    assert (Z.pos N / p = m) as Ed by (rewrite Em; apply Z.div_mul; lia). rewrite Ed.
    rewrite Forall_forall in HF. specialize (HF p I). rewrite Ed in HF. replace (Z.to_nat m) with (Pos.to_nat (Z.to_pos m)) by (destruct m; [lia|reflexivity|lia]). apply (power_no_fixed n f _ N u A C HF); lia. }
  assert (forall u, 0 < u < 2 ^ Z.of_nat n -> 0 < f u < 2 ^ Z.of_nat n) as HC.
  { intros u Hu. pose proof (C u ltac:(lia)) as K. destruct (Z.eq_dec (f u) 0) as [E|E]; [|lia]. exfalso. pose proof (HI u Hu) as H. destruct (Pos2Nat.is_succ N) as [m Em]. rewrite Em, iter_S, <- iter_swap, E in H. rewrite (additive_0 _ (additive_iter f m A)) in H. lia. }
  assert (forall i, 0 < Nat.iter i f v < 2 ^ Z.of_nat n) as HR by (induction i as [|i IH]; [assumption|rewrite iter_S; apply HC; assumption]).
  assert (forall i j, (i < Pos.to_nat N)%nat -> (j < Pos.to_nat N)%nat -> Nat.iter i f v = Nat.iter j f v -> i = j) as Inj.
  { assert (forall i j, (i <= j)%nat -> (j < Pos.to_nat N)%nat -> Nat.iter i f v = Nat.iter j f v -> i = j) as W.
    { intros i j Hij Hj E. destruct (Nat.eq_dec i j) as [|K]; [assumption|exfalso]. replace j with ((j - i) + i)%nat in E by lia. rewrite iter_plus in E. symmetry in E. revert E. apply HD; [apply HR|lia|lia]. }
    intros i j Hi Hj E. destruct (Nat.le_ge_cases i j) as [K|K]; [apply W; assumption|symmetry; apply W; [assumption|assumption|symmetry; assumption]]. }
  split; [apply HI; assumption|]. split; [assumption|].
  intros u Hu. set (l1 := map (fun i => Nat.iter i f v) (seq 0 (Pos.to_nat N))). set (l2 := map Z.of_nat (seq 1 (Pos.to_nat N))).
  assert (In u l1) as I.
  { apply (NoDup_length_incl (l := l1) (l' := l2)).
    - unfold l1. apply NoDup_map_inj; [|apply seq_NoDup]. intros i j Hi Hj. apply in_seq in Hi. apply in_seq in Hj. apply Inj; lia.
    - unfold l1, l2. rewrite !map_length, !seq_length. apply le_n.
    - intros x Hx. unfold l1 in Hx. apply in_map_iff in Hx. destruct Hx as (i & <- & _). unfold l2. apply in_map_iff. pose proof (HR i). exists (Z.to_nat (Nat.iter i f v)). split; [lia|]. apply in_seq. lia.
    - unfold l2. apply in_map_iff. exists (Z.to_nat u). split; [lia|]. apply in_seq. lia. }
  unfold l1 in I. apply in_map_iff in I. destruct I as (i & E & Hi). apply in_seq in Hi. exists i. split; [lia|assumption].
Qed.
