(** Relative errors of the functions of the API (C101). *)
From Coq Require Import ZArith Reals Bool Lia Lra.
From Flocq Require Import Core.Core IEEE754.BinarySingleNaN.
From Verif Require Import CModel FloatModel WidthConv Spec ValueFacts WidthApi WidthProps LogApi LogProps LinApi LinProps LinArith Libm LibmSpec Wrappers WrapApi WrapSpec WrapSpec2 RangeSpec Faithful RangeFacts LogConv KindConv WidthFacts ErrorSpec ErrorProps.
Local Open Scope R_scope.

(** results of functions that are correctly rounded for some widths *)
Lemma error_or : forall k n (c : bool) z t, std_width n -> n <> 8%Z -> (c = true -> rounds k n z t) -> rounds_faithfully k n z t ->
  relative_error k n (if c then 1 else 0) z t.
Proof.
  intros k n [|] z t Sw N8 H F; [apply rounds_error; auto|apply faithful_error; assumption].
Qed.
Lemma lin_add_error : forall n f a b x y, linear_addition n f -> n <> 8%Z -> is_intn n a -> is_intn n b ->
  value Linear n a = Some x -> value Linear n b = Some y ->
  exists t, f a b = Val t /\ is_intn n t /\ relative_error Linear n (if (n <? 64)%Z then 1 else 0) (x + y) t.
Proof.
  intros n f a b x y H N8 Ia Ib Va Vb. destruct (add_faithful n f H a b Ia Ib) as (t & E & I & F). rewrite Va, Vb in F.
  exists t. split; [assumption|]. split; [assumption|]. assert (std_width n) as Sw by (destruct H; unfold std_width; tauto).
  apply error_or; try assumption. intros L. destruct (add_lin_correct n f H ltac:(lia) a b Ia Ib) as (t' & E' & _ & F'). rewrite Va, Vb in F'. assert (t' = t) as -> by congruence. assumption.
Qed.
Lemma lin_sub_error : forall n f a b x y, linear_subtraction n f -> n <> 8%Z -> is_intn n a -> is_intn n b ->
  value Linear n a = Some x -> value Linear n b = Some y ->
  exists t, f a b = Val t /\ is_intn n t /\ relative_error Linear n (if (n <? 64)%Z then 1 else 0) (x - y) t.
Proof.
  intros n f a b x y H N8 Ia Ib Va Vb. destruct (sub_faithful n f H a b Ia Ib) as (t & E & I & F). rewrite Va, Vb in F.
  exists t. split; [assumption|]. split; [assumption|]. assert (std_width n) as Sw by (destruct H; unfold std_width; tauto).
  apply error_or; try assumption. intros L. destruct (sub_lin_correct n f H ltac:(lia) a b Ia Ib) as (t' & E' & _ & F'). rewrite Va, Vb in F'. assert (t' = t) as -> by congruence. assumption.
Qed.
Lemma lin_mul_error : forall n f a b x y, linear_multiplication n f -> n <> 8%Z -> is_intn n a -> is_intn n b ->
  value Linear n a = Some x -> value Linear n b = Some y ->
  exists t, f a b = Val t /\ is_intn n t /\ relative_error Linear n (if (n =? 16)%Z then 1 else 0) (x * y) t.
Proof.
  intros n f a b x y H N8 Ia Ib Va Vb. destruct (mul_lin_faithful n f H a b Ia Ib) as (t & E & I & F). rewrite Va, Vb in F.
  exists t. split; [assumption|]. split; [assumption|]. assert (std_width n) as Sw by (destruct H; unfold std_width; tauto).
  apply error_or; try assumption. intros L. destruct (mul_lin_correct n f H ltac:(lia) a b Ia Ib) as (t' & E' & _ & F'). rewrite Va, Vb in F'. assert (t' = t) as -> by congruence. assumption.
Qed.
Lemma lin_div_error : forall n f a b x y, linear_division n f -> n <> 8%Z -> is_intn n a -> is_intn n b ->
  value Linear n a = Some x -> value Linear n b = Some y -> y <> 0 ->
  exists t, f a b = Val t /\ is_intn n t /\ relative_error Linear n (if (n =? 16)%Z then 1 else 0) (x / y) t.
Proof.
  intros n f a b x y H N8 Ia Ib Va Vb Ny. destruct (div_lin_faithful n f H a b Ia Ib) as (t & E & I & F). rewrite Va, Vb in F. destruct F as [[K _]|[_ F]]; [contradiction|].
  exists t. split; [assumption|]. split; [assumption|]. assert (std_width n) as Sw by (destruct H; unfold std_width; tauto).
  apply error_or; try assumption. intros L. destruct (div_lin_correct n f H ltac:(lia) a b Ia Ib) as (t' & E' & _ & F'). rewrite Va, Vb in F'. destruct F' as [[K _]|[_ F']]; [contradiction|].
  assert (t' = t) as -> by congruence. assumption.
Qed.
Lemma lin_sqrt_error : forall n f a x, linear_square_root n f -> n <> 8%Z -> is_intn n a ->
  value Linear n a = Some x -> 0 <= x ->
  exists t, f a = Val t /\ is_intn n t /\ relative_error Linear n (if (n =? 16)%Z then 1 else 0) (sqrt x) t.
Proof.
  intros n f a x H N8 Ia Va Px. destruct (sqrt_lin_faithful n f H a Ia) as (t & E & I & F). rewrite Va in F. destruct F as [[K _]|[_ F]]; [lra|].
  exists t. split; [assumption|]. split; [assumption|]. assert (std_width n) as Sw by (destruct H; unfold std_width; tauto).
  apply error_or; try assumption. intros L. destruct (sqrt_lin_correct n f H ltac:(lia) a Ia) as (t' & E' & _ & F'). rewrite Va in F'. destruct F' as [[K _]|[_ F']]; [lra|].
  assert (t' = t) as -> by congruence. assumption.
Qed.
Lemma lin_inv_error : forall n f a x, linear_inversion n f -> n <> 8%Z -> is_intn n a ->
  value Linear n a = Some x -> x <> 0 ->
  exists t, f a = Val t /\ is_intn n t /\ relative_error Linear n (if (n =? 16)%Z then 1 else 0) (/ x) t.
Proof.
  intros n f a x H N8 Ia Va Nx. destruct (inv_lin_faithful n f H a Ia) as (t & E & I & F). rewrite Va in F. destruct F as [[K _]|[_ F]]; [contradiction|].
  exists t. split; [assumption|]. split; [assumption|]. assert (std_width n) as Sw by (destruct H; unfold std_width; tauto).
  apply error_or; try assumption. intros L. destruct (inv_lin_correct n f H ltac:(lia) a Ia) as (t' & E' & _ & F'). rewrite Va in F'. destruct F' as [[K _]|[_ F']]; [contradiction|].
  assert (t' = t) as -> by congruence. assumption.
Qed.
Lemma log_mul_error : forall n f a b x y, log_multiplication n f -> n <> 8%Z -> is_intn n a -> is_intn n b ->
  value Logarithmic n a = Some x -> value Logarithmic n b = Some y ->
  exists t, f a b = Val t /\ is_intn n t /\ relative_error Logarithmic n (if (n <? 64)%Z then 1 else 0) (x * y) t.
Proof.
  intros n f a b x y H N8 Ia Ib Va Vb. destruct (mul_faithful n f a b H Ia Ib) as (t & E & I & F). rewrite Va, Vb in F.
  exists t. split; [assumption|]. split; [assumption|]. assert (std_width n) as Sw by (destruct H; unfold std_width; tauto).
  apply error_or; try assumption. intros L. destruct (mul_correct n f a b H ltac:(lia) Ia Ib) as (t' & E' & _ & F'). rewrite Va, Vb in F'. assert (t' = t) as -> by congruence. assumption.
Qed.
Lemma log_div_error : forall n f a b x y, log_division n f -> n <> 8%Z -> is_intn n a -> is_intn n b ->
  value Logarithmic n a = Some x -> value Logarithmic n b = Some y -> y <> 0 ->
  exists t, f a b = Val t /\ is_intn n t /\ relative_error Logarithmic n (if (n <? 64)%Z then 1 else 0) (x / y) t.
Proof.
  intros n f a b x y H N8 Ia Ib Va Vb Ny. destruct (div_faithful n f a b H Ia Ib) as (t & E & I & F). rewrite Va, Vb in F. destruct F as [[K _]|[_ F]]; [contradiction|].
  exists t. split; [assumption|]. split; [assumption|]. assert (std_width n) as Sw by (destruct H; unfold std_width; tauto).
  apply error_or; try assumption. intros L. destruct (div_correct n f a b H ltac:(lia) Ia Ib) as (t' & E' & _ & F'). rewrite Va, Vb in F'. destruct F' as [[K _]|[_ F']]; [contradiction|].
  assert (t' = t) as -> by congruence. assumption.
Qed.
Lemma log_sqrt_error : forall n f a x, log_square_root n f -> n <> 8%Z -> is_intn n a -> value Logarithmic n a = Some x -> 0 <= x ->
  exists t, f a = Val t /\ is_intn n t /\ relative_error Logarithmic n 1 (sqrt x) t.
Proof.
  intros n f a x H N8 Ia Va Px. destruct (sqrt_correct n f a H Ia) as (t & E & I & F). rewrite Va in F. destruct F as [[K _]|[_ F]]; [lra|].
  exists t. split; [assumption|]. split; [assumption|]. apply rounds_error; [destruct H; unfold std_width; tauto|assumption|assumption].
Qed.
Lemma log_power_error : forall n f a j x, log_integer_power n f -> n <> 8%Z -> is_intn n a -> is_int64 j ->
  value Logarithmic n a = Some x -> x <> 0 \/ (0 < j)%Z ->
  exists t, f a j = Val t /\ is_intn n t /\ relative_error Logarithmic n 1 (powerRZ x j) t.
Proof.
  intros n f a j x H N8 Ia Ij Va Px. destruct (pow_correct n f a j H Ia Ij) as (t & E & I & F). rewrite Va in F. destruct F as [[K [K' _]]|[_ F]]; [destruct Px; [contradiction|lia]|].
  exists t. split; [assumption|]. split; [assumption|]. apply rounds_error; [destruct H; unfold std_width; tauto|assumption|assumption].
Qed.
Lemma narrowing_error : forall k B A f t x, narrowing k B A f -> A <> 8%Z -> is_intn B t -> value k B t = Some x ->
  exists u, f t = Val u /\ is_intn A u /\ relative_error k A 1 x u.
Proof.
  intros k B A f t x H N8 It V. destruct (narrowing_rounds k B A f t H It) as (u & E & I & F). rewrite V in F.
  exists u. split; [assumption|]. split; [assumption|]. apply rounds_error; [destruct (narrowing_inv _ _ _ _ H) as (_ & S & _); assumption|assumption|assumption].
Qed.
Lemma lin_from_error : forall n F g (y : flt F), linear_from_float n F g -> n <> 8%Z -> is_finite y = true ->
  exists t, g y = Val t /\ is_intn n t /\ relative_error Linear n (match F with f32 | f64 => if (16 <? n)%Z then 1 else 0 | _ => 0 end) (B2R y) t.
Proof.
  intros n F g y H N8 Fy. destruct (lin_from_faithful n F g y H Fy) as (t & E & I & Fa). exists t. split; [assumption|]. split; [assumption|].
  assert (std_width n) as Sw by (destruct H; unfold std_width; tauto).
  assert (forall (G : F = f32 \/ F = f64), relative_error Linear n (if (16 <? n)%Z then 1 else 0) (B2R y) t) as K.
  { intros G. apply error_or; try assumption. intros L. destruct (lin_from_correct n F g y H ltac:(unfold std_width in Sw; lia) G Fy) as (t' & E' & _ & F'). assert (t' = t) as -> by congruence. assumption. }
  destruct F; auto; apply faithful_error; assumption.
Qed.
Lemma log_from_error : forall lm n F g (y : flt F), c99 lm -> log_from_float lm n F g -> n <> 8%Z -> is_finite y = true ->
  exists t, g y = Val t /\ relative_error Logarithmic n 0 (B2R y) t.
Proof.
  intros lm n F g y C H N8 Fy. destruct (log_from_faithful lm n F g y C H Fy) as (t & E & Fa). exists t. split; [assumption|].
  apply faithful_error; [destruct H; unfold std_width; tauto|assumption|assumption].
Qed.
Lemma to_log_error : forall lm n m f t x, c99 lm -> linear_to_log lm n m f -> m <> 8%Z -> is_intn n t -> value Linear n t = Some x ->
  exists u, f t = Val u /\ relative_error Logarithmic m 0 x u.
Proof.
  intros lm n m f t x C H N8 It V. destruct (linear_to_log_faithful lm n m f t x C H It V) as (u & E & Fa). exists u. split; [assumption|].
  apply faithful_error; [destruct H; unfold std_width; tauto|assumption|assumption].
Qed.
Lemma fun_error : forall lm u w t x, c99 lm -> (w = W16 \/ w = W32) -> argument_error u = 0 ->
  is_intn (bits w) t -> value Linear (bits w) t = Some x -> regular Linear (bits w) u x ->
  exists r, api_unary Linear lm u w t = Val r /\ relative_error Linear (bits w) 0 (real_fun u x) r.
Proof.
  intros lm u w t x C Hw A It V Rg. destruct (unary_faithful lm u w t x C ltac:(destruct Hw; congruence) A It V Rg) as (r & E & F). exists r. split; [assumption|].
  apply faithful_error; [destruct Hw; subst; unfold std_width; simpl; tauto|destruct Hw; subst; discriminate|assumption].
Qed.
Lemma fun2_error : forall lm b w s t x y r, c99 lm -> (w = W16 \/ w = W32) -> b <> n_multiplication -> b <> n_division ->
  is_intn (bits w) s -> is_intn (bits w) t ->
  value Linear (bits w) s = Some x -> value Linear (bits w) t = Some y -> is_value2 b x y r ->
  exists z, api_binary Linear lm b w s t = Val z /\ relative_error Linear (bits w) 0 r z.
Proof.
  intros lm b w s t x y r C Hw B1 B2 Is It Vs Vt Hr. destruct (Faithful.binary_faithful lm C b w s t x y r ltac:(destruct Hw; congruence) B1 B2 Is It Vs Vt Hr) as (z & E & F).
  exists z. split; [assumption|]. apply faithful_error; [destruct Hw; subst; unfold std_width; simpl; tauto|destruct Hw; subst; discriminate|assumption].
Qed.
