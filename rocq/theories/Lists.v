(** Signs and order of sums and products of any length (C114). *)
From Coq Require Import ZArith Reals Bool List Lia Lra.
From Flocq Require Import Core.Core.
From Verif Require Import CModel FloatModel Spec ValueFacts LogApi LogProps LinApi LinArith LinAlgebra MiscProps WidthFacts WidthProps RangeFacts ErrorSpec ListSpec.
Local Open Scope Z_scope.

Lemma some_value : forall k n t, std_width n -> no_nar n t -> exists x, value k n t = Some x.
Proof.
  intros k n t Sw [It N]. destruct (value k n t) eqn:E; [eexists; reflexivity|]. exfalso. apply N. apply (proj1 (order_nar_least k n t Sw It)). assumption.
Qed.
Lemma value_no_nar : forall k n t x, std_width n -> is_intn n t -> value k n t = Some x -> no_nar n t.
Proof.
  intros k n t x Sw It V. split; [assumption|]. intros ->. rewrite (proj2 (proj1 (order_nar_least k n _ Sw It)) eq_refl) in V. discriminate.
Qed.
Lemma sgn_value : forall k n t x, std_width n -> is_intn n t -> value k n t = Some x ->
  (Z.sgn t = 1 <-> (0 < x)%R) /\ (Z.sgn t = 0 <-> x = 0%R) /\ (Z.sgn t = -1 <-> (x < 0)%R).
Proof.
  intros k n t x Sw It V. destruct (value_pos k n t x (std_range n Sw) It V) as (A & B & C). rewrite <- A, <- B, <- C. lia.
Qed.
Lemma sgn_mult_cases : forall (x y z : R) (a b t : Z), ((0 < x * y)%R -> (0 < z)%R) -> ((x * y < 0)%R -> (z < 0)%R) -> ((x * y = 0)%R -> z = 0%R) ->
  (Z.sgn a = 1 <-> (0 < x)%R) /\ (Z.sgn a = 0 <-> x = 0%R) /\ (Z.sgn a = -1 <-> (x < 0)%R) ->
  (Z.sgn b = 1 <-> (0 < y)%R) /\ (Z.sgn b = 0 <-> y = 0%R) /\ (Z.sgn b = -1 <-> (y < 0)%R) ->
  (Z.sgn t = 1 <-> (0 < z)%R) /\ (Z.sgn t = 0 <-> z = 0%R) /\ (Z.sgn t = -1 <-> (z < 0)%R) -> Z.sgn t = Z.sgn a * Z.sgn b.
Proof.
  intros x y z a b t S1 S2 S3 (A1 & A2 & A3) (B1 & B2 & B3) (C1 & C2 & C3).
  destruct (Rtotal_order x 0) as [Hx|[Hx|Hx]]; destruct (Rtotal_order y 0) as [Hy|[Hy|Hy]];
    try rewrite (proj2 A1 Hx); try rewrite (proj2 A2 Hx); try rewrite (proj2 A3 Hx); try rewrite (proj2 B1 Hy); try rewrite (proj2 B2 Hy); try rewrite (proj2 B3 Hy); simpl;
    first [apply C1, S1; nra | apply C3, S2; nra | apply C2, S3; nra].
Qed.
Lemma mul_signs : forall k n f a b, any_multiplication k n f -> no_nar n a -> no_nar n b ->
  exists t, f a b = Val t /\ no_nar n t /\ Z.sgn t = Z.sgn a * Z.sgn b.
Proof.
  intros k n f a b H Na Nb. assert (std_width n) as Sw by (destruct H as [[_ H]|[_ H]]; destruct H; unfold std_width; tauto).
  destruct (some_value k n a Sw Na) as [x Va]. destruct (some_value k n b Sw Nb) as [y Vb].
  assert (exists t, f a b = Val t /\ is_intn n t /\ rounds_faithfully k n (x * y) t) as (t & E & It & F).
  { destruct H as [[-> H]|[-> H]].
    - destruct (mul_lin_faithful n f H a b (proj1 Na) (proj1 Nb)) as (t & E & It & F). rewrite Va, Vb in F. eauto.
    - destruct (mul_faithful n f a b H (proj1 Na) (proj1 Nb)) as (t & E & It & F). rewrite Va, Vb in F. eauto. }
  destruct (faithful_value k n _ t Sw F) as (_ & z & Vz & S1 & S2 & S3). exists t. split; [assumption|]. split; [eapply value_no_nar; eassumption|].
  exact (sgn_mult_cases x y z a b t S1 S2 S3 (sgn_value k n a x Sw (proj1 Na) Va) (sgn_value k n b y Sw (proj1 Nb) Vb) (sgn_value k n t z Sw It Vz)).
Qed.

Lemma product_signs : forall k n f, any_multiplication k n f ->
  forall ts a, no_nar n a -> Forall (no_nar n) ts ->
  exists r, accumulate f a ts = Val r /\ no_nar n r /\ Z.sgn r = Z.sgn a * signs ts.
Proof.
  intros k n f H ts. induction ts as [|t ts IH]; intros a Na Ft.
  - exists a. split; [reflexivity|]. split; [assumption|]. simpl. lia.
  - inversion Ft as [|? ? Nt Ft']; subst. destruct (mul_signs k n f a t H Na Nt) as (p & E & Np & S). destruct (IH p Np Ft') as (r & Er & Nr & Sr).
    exists r. split; [simpl; rewrite E; exact Er|]. split; [assumption|]. rewrite Sr, S. simpl. ring.
Qed.
Lemma add_above : forall n f a b, linear_addition n f -> no_nar n a -> no_nar n b -> 0 <= a -> 0 <= b ->
  exists t, f a b = Val t /\ no_nar n t /\ a <= t /\ b <= t.
Proof.
  intros n f a b H Na Nb Pa Pb. assert (std_width n) as Sw by (destruct H; unfold std_width; tauto).
  destruct (some_value Linear n a Sw Na) as [x Va]. destruct (some_value Linear n b Sw Nb) as [y Vb].
  destruct (add_faithful n f H a b (proj1 Na) (proj1 Nb)) as (t & E & It & F). rewrite Va, Vb in F. destruct (faithful_value _ n _ t Sw F) as (_ & z & Vz & _).
  destruct (value_pos _ n a x (std_range n Sw) (proj1 Na) Va) as (A1 & A2 & A3). destruct (value_pos _ n b y (std_range n Sw) (proj1 Nb) Vb) as (B1 & B2 & B3).
  assert (0 <= x)%R as Px by (apply Rnot_lt_le; intros K; apply A3 in K; lia). assert (0 <= y)%R as Py by (apply Rnot_lt_le; intros K; apply B3 in K; lia).
  pose proof (faithful_ge Linear n _ t z a x Sw F Vz (proj1 Na) Va ltac:(lra)) as Ga. pose proof (faithful_ge Linear n _ t z b y Sw F Vz (proj1 Nb) Vb ltac:(lra)) as Gb.
  exists t. split; [assumption|]. split; [eapply value_no_nar; eassumption|].
  split; apply Z.nlt_ge; intros K.
  - apply (proj1 (order_numeric Linear n t a z x Sw It (proj1 Na) Vz Va)) in K. lra.
  - apply (proj1 (order_numeric Linear n t b z y Sw It (proj1 Nb) Vz Vb)) in K. lra.
Qed.
Lemma sum_above : forall n f, linear_addition n f -> forall ts a, no_nar n a -> 0 <= a -> Forall (fun t => no_nar n t /\ 0 <= t) ts ->
  exists r, accumulate f a ts = Val r /\ no_nar n r /\ a <= r /\ Forall (fun t => t <= r) ts.
Proof.
  intros n f H ts. induction ts as [|t ts IH]; intros a Na Pa Ft.
  - exists a. split; [reflexivity|]. split; [assumption|]. split; [lia|constructor].
  - inversion Ft as [|? ? [Nt Pt] Ft']; subst. destruct (add_above n f a t H Na Nt Pa Pt) as (p & E & Np & L1 & L2). destruct (IH p Np ltac:(lia) Ft') as (r & Er & Nr & L & F).
    exists r. split; [simpl; rewrite E; exact Er|]. split; [assumption|]. split; [lia|constructor; [lia|assumption]].
Qed.
Lemma add_runs : forall n f a b, linear_addition n f -> no_nar n a -> no_nar n b -> exists t, f a b = Val t /\ no_nar n t.
Proof.
  intros n f a b H Na Nb. assert (std_width n) as Sw by (destruct H; unfold std_width; tauto).
  destruct (some_value Linear n a Sw Na) as [x Va]. destruct (some_value Linear n b Sw Nb) as [y Vb].
  destruct (add_faithful n f H a b (proj1 Na) (proj1 Nb)) as (t & E & It & F). rewrite Va, Vb in F. destruct (faithful_value _ n _ t Sw F) as (_ & z & Vz & _).
  exists t. split; [assumption|]. eapply value_no_nar; eassumption.
Qed.
Lemma sum_monotone : forall n f, linear_addition n f -> forall ts us a b, no_nar n a -> no_nar n b -> a <= b ->
  Forall2 (fun t u => no_nar n t /\ no_nar n u /\ t <= u) ts us -> exists r s, accumulate f a ts = Val r /\ accumulate f b us = Val s /\ r <= s.
Proof.
  intros n f H ts. induction ts as [|t ts IH]; intros us a b Na Nb L F; inversion F as [|? u ? us' (Nt & Nu & Ltu) F']; subst.
  - exists a, b. repeat split; assumption.
  - simpl. destruct (add_runs n f a t H Na Nt) as (p & Ep & Np). destruct (add_runs n f b u H Nb Nu) as (q & Eq & Nq). rewrite Ep, Eq. cbn [bind].
    apply (IH us' p q Np Nq); [|assumption].
    apply (LinAlgebra.add_mono n f a t b u p q H); try apply Na; try apply Nb; try apply Nt; try apply Nu; assumption.
Qed.

Lemma mul_both_mono : forall k n f a b c d u v, any_multiplication k n f ->
  no_nar n a -> no_nar n b -> no_nar n c -> no_nar n d -> 0 < a <= c -> 0 < b <= d -> f a b = Val u -> f c d = Val v -> 0 < u <= v.
Proof.
  intros k n f a b c d u v H Na Nb Nc Nd [Pa L1] [Pb L2] Eu Ev.
  destruct (mul_signs k n f a b H Na Nb) as (u' & Eu' & Nu & Su). assert (u' = u) as -> by congruence. rewrite (Z.sgn_pos a), (Z.sgn_pos b) in Su by lia. split; [lia|].
  destruct (mul_signs k n f c b H Nc Nb) as (w & Ew & Nw & _).
  assert (is_real_takum n b) as Rb by (destruct Nb; split; [assumption|]; split; [lia|assumption]). assert (is_real_takum n c) as Rc by (destruct Nc; split; [assumption|]; split; [lia|assumption]).
  apply Z.le_trans with w; destruct H as [[-> H]|[-> H]].
  - apply (mul_lin_mono n f a c b u w H); try apply Na; try apply Nc; try apply Nb; try assumption. lia.
  - apply (LogProps.mul_mono n f a c b u w H); try apply Na; try apply Nc; assumption.
  - apply (mul_lin_mono n f b d c w v H); try apply Nb; try apply Nd; try apply Nc; try lia; rewrite <- ?Ew, <- ?Ev; apply multiplication_commutes with (n := n); try assumption; try apply Nb; try apply Nd; apply Nc.
  - apply (LogProps.mul_mono n f b d c w v H); try apply Nb; try apply Nd; try assumption; try lia; rewrite <- ?Ew, <- ?Ev; apply mul_comm with (n := n); try assumption; try apply Nb; try apply Nd; apply Nc.
Qed.
Lemma product_monotone : forall k n f, any_multiplication k n f ->
  forall ts us a b, no_nar n a -> no_nar n b -> 0 < a <= b ->
  Forall2 (fun t u => no_nar n t /\ no_nar n u /\ 0 < t <= u) ts us -> exists r s, accumulate f a ts = Val r /\ accumulate f b us = Val s /\ 0 < r <= s.
Proof.
  intros k n f H ts. induction ts as [|t ts IH]; intros us a b Na Nb L F; inversion F as [|? u ? us' (Nt & Nu & Ltu) F']; subst.
  - exists a, b. repeat split; apply L.
  - simpl. destruct (mul_signs k n f a t H Na Nt) as (p & Ep & Np & _). destruct (mul_signs k n f b u H Nb Nu) as (q & Eq & Nq & _). rewrite Ep, Eq. cbn [bind].
    apply (IH us' p q Np Nq); [|assumption]. eapply (mul_both_mono k n f a t b u p q H); eassumption.
Qed.
