(** The choice of the test cases (for C138-C143). *)
From Coq Require Import ZArith List Bool Lia.
From Verif Require Import CModel Spec Wrappers WrapApi WidthFacts TestHarness HarnessSpec Lfsr GeneratorFacts.
Import ListNotations.
Local Open Scope Z_scope.

Lemma bits_pos : forall w, 1 <= bits w.
Proof. destruct w; cbn; lia. Qed.
Lemma to_u_range : forall w z, 0 <= to_u (bits w) z < 2 ^ bits w.
Proof. intros w z. apply Z.mod_pos_bound. destruct w; reflexivity. Qed.
Lemma period_value : forall w, Z.pos (period w) = 2 ^ bits w - 1.
Proof. destruct w; reflexivity. Qed.

(** ** The generators *)
Lemma taps_orbit : forall w u, 0 < u < 2 ^ bits w ->
  Nat.iter (Pos.to_nat (period w)) (taps w) u = u /\
  (forall i j, (i < Pos.to_nat (period w))%nat -> (j < Pos.to_nat (period w))%nat -> Nat.iter i (taps w) u = Nat.iter j (taps w) u -> i = j) /\
  (forall u', 0 < u' < 2 ^ bits w -> exists i, (i < Pos.to_nat (period w))%nat /\ Nat.iter i (taps w) u = u').
Proof.
  intros w u Hu. rewrite <- (size_bits w) in *. apply (full_orbit (size w) (taps w) (period w) (primes w)).
  - apply taps_additive.
  - apply taps_closed.
  - rewrite size_bits. apply period_value.
  - apply period_factors.
  - apply taps_period.
  - apply taps_order.
  - assumption.
Qed.
Lemma taps_positive : forall w u i, 0 < u < 2 ^ bits w -> 0 < Nat.iter i (taps w) u < 2 ^ bits w.
Proof.
  intros w u i Hu. pose proof (closed_iter (size w) (taps w) i (taps_closed w)) as C. unfold closed in C. rewrite size_bits in C. specialize (C u ltac:(lia)).
  destruct (Z.eq_dec (Nat.iter i (taps w) u) 0) as [E|E]; [exfalso|lia].
  destruct (taps_orbit w u Hu) as [P _].
  assert (Nat.iter (i * Pos.to_nat (period w)) (taps w) u = u) as F by (apply iter_fixed; assumption).
  assert (i <= i * Pos.to_nat (period w))%nat as L by (pose proof (Pos2Nat.is_pos (period w)); nia).
  replace (i * Pos.to_nat (period w))%nat with ((i * Pos.to_nat (period w) - i) + i)%nat in F by lia.
  rewrite iter_plus, E, (additive_0 _ (additive_iter (taps w) _ (taps_additive w))) in F. lia.
Qed.
Lemma taps_nonzero : forall w u i, 0 < u < 2 ^ bits w -> to_s (bits w) (Nat.iter i (taps w) u) <> 0.
Proof.
  intros w u i Hu E. pose proof (taps_positive w u i Hu) as P. pose proof (to_u_to_s (bits w) (Nat.iter i (taps w) u) (bits_pos w)) as K.
  rewrite E, (to_u_small _ (Nat.iter i (taps w) u)) in K by lia. rewrite to_u_small in K by (pose proof (to_u_range w 0); lia). lia.
Qed.
Lemma to_u_nonzero : forall w v, is_intn (bits w) v -> v <> 0 -> 0 < to_u (bits w) v < 2 ^ bits w.
Proof.
  intros w v Hv N. pose proof (to_u_range w v). destruct (Z.eq_dec (to_u (bits w) v) 0) as [E|E]; [exfalso|lia].
  apply N. rewrite <- (to_s_to_u (bits w) v (bits_pos w) Hv), E. destruct w; reflexivity.
Qed.
(** one step of the generator from a state in an orbit *)
Lemma next_orbit : forall w r u i, 0 < u < 2 ^ bits w ->
  random_next r (to_s (bits w) (Nat.iter i (taps w) u)) w = Val (to_s (bits w) (Nat.iter (S i) (taps w) u)).
Proof.
  intros w r u i Hu. rewrite next_taps; [|apply to_s_intn; apply bits_pos|apply taps_nonzero; assumption].
  rewrite to_u_to_s by apply bits_pos. rewrite to_u_small by (pose proof (taps_positive w u i Hu); lia). rewrite iter_S. reflexivity.
Qed.
Lemma run_orbit : forall w rnd v i, is_intn (bits w) v -> v <> 0 -> random_run w rnd i v = Val (to_s (bits w) (Nat.iter i (taps w) (to_u (bits w) v))).
Proof.
  intros w rnd v i Hv N. induction i as [|i IH].
  - cbn. rewrite to_s_to_u by (assumption || apply bits_pos). reflexivity.
  - cbn [random_run]. rewrite IH. cbn [bind]. apply next_orbit. apply to_u_nonzero; assumption.
Qed.
Lemma to_s_inj : forall w x y, 0 <= x < 2 ^ bits w -> 0 <= y < 2 ^ bits w -> to_s (bits w) x = to_s (bits w) y -> x = y.
Proof.
  intros w x y Hx Hy E. rewrite <- (to_u_small _ x Hx), <- (to_u_small _ y Hy), <- (to_u_to_s (bits w) x), <- (to_u_to_s (bits w) y) by apply bits_pos.
  rewrite E. reflexivity.
Qed.
Lemma full_period : forall w rnd v, is_intn (bits w) v -> v <> 0 ->
  (forall i, exists u, random_run w rnd i v = Val u /\ is_intn (bits w) u /\ u <> 0) /\
  (forall i, Z.of_nat i = 2 ^ bits w - 1 -> random_run w rnd i v = Val v) /\
  (forall i j, Z.of_nat i < 2 ^ bits w - 1 -> Z.of_nat j < 2 ^ bits w - 1 -> random_run w rnd i v = random_run w rnd j v -> i = j) /\
  (forall u, is_intn (bits w) u -> u <> 0 -> exists i, Z.of_nat i < 2 ^ bits w - 1 /\ random_run w rnd i v = Val u).
Proof.
  intros w rnd v Hv N. pose proof (to_u_nonzero w v Hv N) as Hu. destruct (taps_orbit w (to_u (bits w) v) Hu) as (P & I & S).
  rewrite <- (period_value w). split; [|split; [|split]].
  - intros i. rewrite run_orbit by assumption. eexists. split; [reflexivity|]. split; [apply to_s_intn, bits_pos|apply taps_nonzero; assumption].
  - intros i Hi. rewrite run_orbit by assumption. assert (i = Pos.to_nat (period w)) as -> by lia. rewrite P, to_s_to_u by (assumption || apply bits_pos). reflexivity.
  - intros i j Hi Hj E. rewrite !run_orbit in E by assumption. injection E as E. apply I; [lia|lia|]. pose proof (taps_positive w _ i Hu). pose proof (taps_positive w _ j Hu). apply (to_s_inj w); [lia|lia|assumption].
  - intros u Ht Nu. destruct (S _ (to_u_nonzero w u Ht Nu)) as (i & Hi & E). exists i. split; [lia|]. rewrite run_orbit by assumption. rewrite E, to_s_to_u by (assumption || apply bits_pos). reflexivity.
Qed.
(** every step is defined and stays in range *)
Lemma next_total : forall w r v, is_intn (bits w) v -> exists u, random_next r v w = Val u /\ is_intn (bits w) u.
Proof.
  intros w r v Hv. assert (forall v, is_intn (bits w) v -> v <> 0 -> exists u, random_next r v w = Val u /\ is_intn (bits w) u) as H.
  { intros x Hx N. rewrite next_taps by assumption. eexists. split; [reflexivity|]. apply to_s_intn, bits_pos. }
  destruct (Z.eq_dec v 0) as [-> |N]; [|apply H; assumption].
  rewrite next_zero. destruct (Z.eqb_spec (to_u (bits w) r) 0) as [E|E]; [exists 0; split; [reflexivity|assumption]|].
  apply H; [apply to_s_intn, bits_pos|]. intros K. apply E. rewrite <- (to_u_to_s (bits w) r (bits_pos w)), K. destruct w; reflexivity.
Qed.

(** ** Trajectories of the sampler *)
Fixpoint walk (utb : unit_test_block) (w : Wrappers.width) (s : sampler) (rnd : nat -> Z) (j : nat) : sampler * (nat -> Z) :=
  match j with
  | O => (s, rnd)
  | S j =>
      let (s', r') := walk utb w s rnd j in
      match sampler_next utb w r' s' with
      | Val (More s'' calls) => (s'', fun i => r' (calls + i)%nat)
      | _ => (s', r')
      end
  end.
Definition point (utb : unit_test_block) (w : Wrappers.width) (s : sampler) (rnd : nat -> Z) (j : nat) : Z * Z :=
  (value_x (fst (walk utb w s rnd j)), value_y (fst (walk utb w s rnd j))).
Lemma walk_S : forall utb w s rnd j, walk utb w s rnd (S j) =
  match sampler_next utb w (snd (walk utb w s rnd j)) (fst (walk utb w s rnd j)) with
  | Val (More s'' calls) => (s'', fun i => snd (walk utb w s rnd j) (calls + i)%nat)
  | _ => (fst (walk utb w s rnd j), snd (walk utb w s rnd j))
  end.
Proof. intros. cbn [walk]. destruct (walk utb w s rnd j). reflexivity. Qed.

Definition continues (utb : unit_test_block) w (c : sampler * (nat -> Z)) : Prop := exists s' calls, sampler_next utb w (snd c) (fst c) = Val (More s' calls).

Lemma walk_loop : forall utb k w s rnd T, (forall j, (j <= T)%nat -> check_unary_binary_case utb (fst (point utb w s rnd j)) (snd (point utb w s rnd j)) k w <> UB) ->
  (forall j, (j < T)%nat -> continues utb w (walk utb w s rnd j)) ->
  sampler_next utb w (snd (walk utb w s rnd T)) (fst (walk utb w s rnd T)) = Val Done ->
  forall d j, (j + d = T)%nat -> exists l, test_loop utb k w (fst (walk utb w s rnd j)) (snd (walk utb w s rnd j)) l Finished /\
    map fst l = map (point utb w s rnd) (seq j (S d)).
Proof.
  intros utb k w s rnd T Hc Hm Hd d. induction d as [|d IH]; intros j Hj.
  - assert (j = T) as -> by lia. pose proof (Hc T ltac:(lia)) as K. destruct (check_unary_binary_case utb (fst (point utb w s rnd T)) (snd (point utb w s rnd T)) k w) as [c|] eqn:E; [|contradiction].
    eexists. split; [eapply loop_done; [exact E|exact Hd]|reflexivity].
  - pose proof (Hc j ltac:(lia)) as K. destruct (check_unary_binary_case utb (fst (point utb w s rnd j)) (snd (point utb w s rnd j)) k w) as [c|] eqn:E; [|contradiction].
    destruct (Hm j ltac:(lia)) as (s' & calls & N). destruct (IH (S j) ltac:(lia)) as (l & L & M). rewrite walk_S, N in L. cbn [fst snd] in L.
    eexists. split; [eapply loop_more; [exact E|exact N|exact L]|]. cbn [map seq fst]. f_equal. exact M.
Qed.

Lemma loop_deterministic : forall utb k w s rnd l e, test_loop utb k w s rnd l e -> forall l' e', test_loop utb k w s rnd l' e' -> l' = l /\ e' = e.
Proof.
  induction 1 as [s rnd C|s rnd c C N|s rnd c C N|s rnd c C N|s rnd c s' calls l e C N L IH]; intros l' e' H';
    inversion H'; subst; try congruence;
    repeat match goal with
           | H1 : check_unary_binary_case _ _ _ _ _ = Val ?a, H2 : check_unary_binary_case _ _ _ _ _ = Val ?b |- _ =>
               assert (a = b) by congruence; subst; clear H2
           end; try (split; reflexivity).
  match goal with H : sampler_next utb w rnd s = Val (More ?s2 ?c2) |- _ =>
    assert (s2 = s') as -> by congruence; assert (c2 = calls) as -> by congruence end.
  match goal with H : test_loop _ _ _ _ _ ?l2 ?e2 |- _ /\ ?e2 = _ => destruct (IH _ _ H) as [-> ->] end. split; reflexivity.
Qed.
Lemma loop_checks : forall utb k w s rnd l e, test_loop utb k w s rnd l e -> forall a b c, In (a, b, c) l -> check_unary_binary_case utb a b k w = Val c.
Proof.
  induction 1 as [s rnd C|s rnd c C N|s rnd c C N|s rnd c C N|s rnd c s' calls l e C N L IH]; intros a b c0 I; cbn in I; try tauto;
    try (destruct I as [I|[]]; injection I as <- <- <-; exact C).
  destruct I as [I|I]; [injection I as <- <- <-; exact C|apply IH; exact I].
Qed.
