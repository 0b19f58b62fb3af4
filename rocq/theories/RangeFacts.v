(** The results of the elementary functions lie in the ranges of the functions. *)
From Coq Require Import ZArith Reals Bool Lia Lra Psatz.
From Flocq Require Import Core.Core IEEE754.BinarySingleNaN.
From Verif Require Import CModel FloatModel Libm LibmSpec Spec CodeFacts SpecFacts ValueFacts WidthFacts WidthApi WidthProps Wrappers WrapApi WrapSpec RoundFacts MiscProps LinArithRefute WrapExact WrapSign RangeSpec Faithful CalcFacts LibmIdeal WrapSpec2.
Local Open Scope R_scope.

Lemma faithful_value : forall k n z t, std_width n -> rounds_faithfully k n z t -> is_intn n t /\ exists y, value k n t = Some y /\ (0 < z -> 0 < y) /\ (z < 0 -> y < 0) /\ (z = 0 -> y = 0).
Proof.
  intros k n z t Sw [[-> ->]|[Nz (R & S & _)]]; pose proof (std_range n Sw) as Hn.
  - split; [unfold is_intn; pose proof (Z.pow_pos_nonneg 2 (n - 1) ltac:(lia) ltac:(lia)); lia|]. exists 0. rewrite value_0. split; [reflexivity|]. repeat split; lra.
  - split; [apply R|]. eexists. rewrite value_real by (assumption || lia). split; [reflexivity|]. rewrite (RoundFacts.has_sign_ltb _ _ S). pose proof (E_pos k (l_ n t)). 
    case Rlt_bool_spec; intros K; repeat split; intros; lra.
Qed.
Lemma E_le : forall k x y, x <= y -> E k x <= E k y.
Proof. intros k x y [H|H]; [left; apply E_lt; assumption|right; rewrite H; reflexivity]. Qed.
Lemma real_of_value : forall k n a v, std_width n -> is_intn n a -> value k n a = Some v -> v <> 0 -> is_real_takum n a.
Proof.
  intros k n a v Sw Ia Va Nv. pose proof (std_range n Sw) as Hn. destruct (takum_cases n a Ia) as [-> | [-> | R]]; [rewrite value_0 in Va; congruence|rewrite value_nar in Va by lia; discriminate|assumption].
Qed.

(** no takum lies between a number and a faithful rounding of it *)
Lemma faithful_le : forall k n z t y a v, std_width n -> rounds_faithfully k n z t -> value k n t = Some y -> is_intn n a -> value k n a = Some v -> z <= v -> y <= v.
Proof.
  intros k n z t y a v Sw Rf Vy Ia Va Hz. pose proof (std_range n Sw) as Hn. destruct (faithful_value k n z t Sw Rf) as (_ & y' & Vy' & S1 & S2 & S3).
  assert (y' = y) as -> by congruence. destruct Rf as [[-> ->]|[Nz (R & S & F)]]; [rewrite S3 by reflexivity; lra|].
  destruct (Rlt_or_le v 0) as [Vn|Vp].
  - pose proof (real_of_value k n a v Sw Ia Va ltac:(lra)) as Ra. destruct (coord_of_value k n a v Hn Ra Va) as (_ & Ca & Sa). rewrite Rlt_bool_true in Sa by assumption.
    rewrite Rlt_bool_true in * by lra. assert (has_sign true a) as Ha by (simpl; lia). destruct (F a Ra Ha) as [F1 _].
    assert (l_ n a <= coord k z) as La. { rewrite <- Ca, <- (coord_opp k v), <- (coord_opp k z). apply LogProps.coord_le; lra. }
    assert (l_ n a <= l_ n t) as Lt by lra. rewrite value_real in Vy, Va by (assumption || lia). rewrite (RoundFacts.has_sign_ltb _ _ S) in Vy. rewrite <- Sa in Va.
    assert (y = -1 * E k (l_ n t)) as -> by congruence. assert (v = -1 * E k (l_ n a)) as -> by congruence. pose proof (E_le k _ _ Lt). lra.
  - destruct (Rlt_or_le z 0) as [Zn|Zp]; [specialize (S2 Zn); lra|]. assert (0 < z) as Pz by lra.
    pose proof (real_of_value k n a v Sw Ia Va ltac:(lra)) as Ra. destruct (coord_of_value k n a v Hn Ra Va) as (_ & Ca & Sa). rewrite Rlt_bool_false in Sa by assumption.
    rewrite Rlt_bool_false in * by lra. assert (has_sign false a) as Ha by (simpl; destruct Ra as (_ & N0 & _); lia). destruct (F a Ra Ha) as [_ F1].
    assert (coord k z <= l_ n a) as La by (rewrite <- Ca; apply LogProps.coord_le; lra).
    assert (l_ n t <= l_ n a) as Lt by lra. rewrite value_real in Vy, Va by (assumption || lia). rewrite (RoundFacts.has_sign_ltb _ _ S) in Vy. rewrite <- Sa in Va.
    assert (y = 1 * E k (l_ n t)) as -> by congruence. assert (v = 1 * E k (l_ n a)) as -> by congruence. pose proof (E_le k _ _ Lt). lra.
Qed.
Lemma faithful_ge : forall k n z t y a v, std_width n -> rounds_faithfully k n z t -> value k n t = Some y -> is_intn n a -> value k n a = Some v -> v <= z -> v <= y.
Proof.
  intros k n z t y a v Sw Rf Vy Ia Va Hz. pose proof (std_range n Sw) as Hn. destruct (faithful_value k n z t Sw Rf) as (_ & y' & Vy' & S1 & S2 & S3).
  assert (y' = y) as -> by congruence. destruct Rf as [[-> ->]|[Nz (R & S & F)]]; [rewrite S3 by reflexivity; lra|].
  destruct (Rlt_or_le 0 v) as [Vp|Vn].
  - pose proof (real_of_value k n a v Sw Ia Va ltac:(lra)) as Ra. destruct (coord_of_value k n a v Hn Ra Va) as (_ & Ca & Sa). rewrite Rlt_bool_false in Sa by lra.
    rewrite Rlt_bool_false in * by lra. assert (has_sign false a) as Ha by (simpl; destruct Ra as (_ & N0 & _); lia). destruct (F a Ra Ha) as [F1 _].
    assert (l_ n a <= coord k z) as La by (rewrite <- Ca; apply LogProps.coord_le; lra).
    assert (l_ n a <= l_ n t) as Lt by lra. rewrite value_real in Vy, Va by (assumption || lia). rewrite (RoundFacts.has_sign_ltb _ _ S) in Vy. rewrite <- Sa in Va.
    assert (y = 1 * E k (l_ n t)) as -> by congruence. assert (v = 1 * E k (l_ n a)) as -> by congruence. pose proof (E_le k _ _ Lt). lra.
  - destruct (Rlt_or_le 0 z) as [Zp|Zn]; [specialize (S1 Zp); lra|]. assert (z < 0) as Pz by lra.
    pose proof (real_of_value k n a v Sw Ia Va ltac:(lra)) as Ra. destruct (coord_of_value k n a v Hn Ra Va) as (_ & Ca & Sa). rewrite Rlt_bool_true in Sa by lra.
    rewrite Rlt_bool_true in * by lra. assert (has_sign true a) as Ha by (simpl; lia). destruct (F a Ra Ha) as [_ F1].
    assert (coord k z <= l_ n a) as La. { rewrite <- Ca, <- (coord_opp k v), <- (coord_opp k z). apply LogProps.coord_le; lra. }
    assert (l_ n t <= l_ n a) as Lt by lra. rewrite value_real in Vy, Va by (assumption || lia). rewrite (RoundFacts.has_sign_ltb _ _ S) in Vy. rewrite <- Sa in Va.
    assert (y = -1 * E k (l_ n t)) as -> by congruence. assert (v = -1 * E k (l_ n a)) as -> by congruence. pose proof (E_le k _ _ Lt). lra.
Qed.

(** ** The ranges of the functions *)
Lemma cosh_ge1 : forall x, 1 <= cosh x.
Proof.
  intros x. unfold cosh. pose proof (exp_pos x) as P. assert (exp (- x) = / exp x) as -> by apply exp_Ropp.
  assert (2 <= exp x + / exp x); [|lra]. assert (exp x * / exp x = 1) as Q by (apply Rinv_r; lra). assert (0 < / exp x) by (apply Rinv_0_lt_compat; assumption).
  assert (0 <= (exp x - 1) * (exp x - 1) * / exp x) by (apply Rmult_le_pos; [apply Rle_0_sqr|lra]).
  replace ((exp x - 1) * (exp x - 1) * / exp x) with (exp x * (exp x * / exp x) - 2 * (exp x * / exp x) + / exp x) in H0 by ring. rewrite Q in H0. lra.
Qed.
Lemma sinh_lt_cosh : forall x, Rabs (sinh x) < cosh x.
Proof. intros x. unfold sinh, cosh. pose proof (exp_pos x). pose proof (exp_pos (- x)). apply Rabs_def1; lra. Qed.
Lemma inv_ge1 : forall c, c <> 0 -> Rabs c <= 1 -> 1 <= Rabs (/ c).
Proof. intros c N H. rewrite Rabs_inv. rewrite <- Rinv_1. apply Rinv_le; [apply Rabs_pos_lt; assumption|assumption]. Qed.
Lemma over_pi : forall z, - (PI / 2) <= z <= PI / 2 -> - / 2 <= z / PI <= / 2.
Proof.
  intros z H. pose proof PI_RGT_0 as P. assert (0 < / PI) as Q by (apply Rinv_0_lt_compat; assumption). assert (PI * / PI = 1) as I by (apply Rinv_r; lra). unfold Rdiv.
  assert (- (PI / 2) * / PI <= z * / PI <= PI / 2 * / PI) as K by (split; apply Rmult_le_compat_r; lra).
  replace (- (PI / 2) * / PI) with (- / 2 * (PI * / PI)) in K by (unfold Rdiv; ring). replace (PI / 2 * / PI) with (/ 2 * (PI * / PI)) in K by (unfold Rdiv; ring). rewrite I in K. lra.
Qed.
Lemma over_pi1 : forall z, 0 <= z <= PI -> 0 <= z / PI <= 1.
Proof. intros z H. pose proof (over_pi (z - PI / 2) ltac:(lra)) as K. pose proof PI_RGT_0 as P. replace ((z - PI / 2) / PI) with (z / PI - / 2) in K by (field; lra). lra. Qed.
Lemma ln_ge0 : forall p, 1 <= p -> 0 <= ln p.
Proof. intros p [H|<-]; [left; apply (ln_sign p); lra|rewrite ln_1; lra]. Qed.

Lemma real_range : forall u x, defined u x -> range Linear u (real_fun u x).
Proof.
  intros u x D. pose proof (SIN_bound x) as Bs. pose proof (COS_bound x) as Bc. pose proof (SIN_bound (PI * x)) as Bs'. pose proof (COS_bound (PI * x)) as Bc'.
  pose proof (cosh_ge1 x) as Ch. pose proof (sinh_lt_cosh x) as Sh. pose proof (atan_bound x) as At. pose proof (acos_bound x) as Ac. pose proof (asin_bound x) as As.
  pose proof (acos_bound (/ x)) as Ac'. pose proof (asin_bound (/ x)) as As'. pose proof PI_RGT_0 as P.
  destruct u; cbn [range real_fun defined] in *; try exact I.
  - apply exp_pos.
  - pose proof (exp_pos x). lra.
  - apply exp_pos.
  - pose proof (exp_pos (x * ln 2)). unfold Rpower. lra.
  - apply exp_pos.
  - pose proof (exp_pos (x * ln 10)). unfold Rpower. lra.
  - lra.
  - lra.
  - lra.
  - lra.
  - apply inv_ge1; [assumption|apply Rabs_le; lra].
  - apply inv_ge1; [assumption|apply Rabs_le; lra].
  - apply inv_ge1; [assumption|apply Rabs_le; lra].
  - apply inv_ge1; [assumption|apply Rabs_le; lra].
  - apply over_pi. lra.
  - lra.
  - apply over_pi1. lra.
  - apply over_pi. lra.
  - lra.
  - pose proof (over_pi1 (PI / 2 - atan x) ltac:(lra)) as K. split; [|lra]. apply Rdiv_lt_0_compat; lra.
  - lra.
  - apply over_pi1. lra.
  - apply over_pi. lra.
  - assumption.
  - pose proof (Rabs_def2 _ _ Sh) as [K1 K2]. assert (0 < / cosh x) as Q by (apply Rinv_0_lt_compat; lra). assert (cosh x * / cosh x = 1) as J by (apply Rinv_r; lra).
    unfold Rdiv. nra.
  - assert (sinh x <> 0) as Ns. { intros Z. apply D. destruct (Rtotal_order x 0) as [H|[H|H]]; [|assumption|]; exfalso; [pose proof (sinh_lt x 0 H)|pose proof (sinh_lt 0 x H)]; rewrite sinh_0 in *; lra. }
    unfold Rdiv. rewrite Rabs_mult, Rabs_inv, (Rabs_pos_eq (cosh x)) by lra. pose proof (Rabs_pos_lt _ Ns) as Pn.
    assert (Rabs (sinh x) * / Rabs (sinh x) = 1) as J by (apply Rinv_r; lra). assert (0 < / Rabs (sinh x)) by (apply Rinv_0_lt_compat; assumption). nra.
  - split; [apply Rinv_0_lt_compat; lra|]. rewrite <- Rinv_1. apply Rinv_le; lra.
  - apply ln_ge0. pose proof (sqrt_pos (x * x - 1)). lra.
  - apply ln_ge0. pose proof (sqrt_pos (/ x * / x - 1)). assert (/ 1 <= / x) by (apply Rinv_le; lra). rewrite Rinv_1 in *. lra.
Qed.

Lemma half_takum : forall n, std_width n -> value Linear n (7 * 2 ^ (n - 5)) = Some (/ 2) /\ is_intn n (7 * 2 ^ (n - 5)) /\ value Linear n (- (7 * 2 ^ (n - 5))) = Some (- / 2) /\ is_intn n (- (7 * 2 ^ (n - 5))).
Proof.
  intros n Sw. pose proof (std_range n Sw) as Hn.
  assert (value Linear n (7 * 2 ^ (n - 5)) = Some (/ 2) /\ is_intn n (7 * 2 ^ (n - 5)) /\ 7 * 2 ^ (n - 5) <> nar n)%Z as (V & I & N).
  { assert (n = 8 \/ n = 16 \/ n = 32 \/ n = 64)%Z as [-> | [-> | [-> | ->]]] by exact Sw.
    all: split; [|split; [unfold is_intn; lia|unfold nar; lia]]; rewrite value_const by lia; f_equal; unfold vm, ve.
    all: match goal with |- IZR ?a * bpow _ ?b = _ => let a' := eval vm_compute in a in let b' := eval vm_compute in b in change a with a'; change b with b' end; cbn -[IZR]; simpl; lra. }
  split; [assumption|]. split; [assumption|]. destruct (negation_negates Linear n _ Sw I N) as (I' & _ & x & Vx & Vn). assert (x = / 2) as -> by congruence. split; assumption.
Qed.

Theorem unary_range : forall k lm u w t x, c99 lm -> w <> W64 -> is_intn (bits w) t -> value k (bits w) t = Some x -> regular k (bits w) u x ->
  exists r y, api_unary k lm u w t = Val r /\ value k (bits w) r = Some y /\ range k u y.
Proof.
  intros k lm u w t x C Nw It Hx Rg. destruct (unary_faithful_near k lm u w t x C Nw It Hx Rg) as (r & x' & E & _ & D & Rf). destruct (narrow_bits w Nw) as [Sw Lw].
  destruct (faithful_value _ _ _ _ Sw Rf) as (Ir & y & Vy & S1 & S2 & S3). exists r, y. split; [assumption|]. split; [assumption|].
  destruct (value_one_k k (bits w) Sw) as [V1 I1]. destruct (CalcFacts.value_minus_one k (bits w) Sw) as [V1' I1']. destruct (half_takum (bits w) Sw) as (V2 & I2 & V2' & I2').
  pose proof (fun H => faithful_le k _ _ _ _ _ _ Sw Rf Vy I1 V1 H) as L1. pose proof (fun H => faithful_ge k _ _ _ _ _ _ Sw Rf Vy I1' V1' H) as G1.
  pose proof (fun H => faithful_ge k _ _ _ _ _ _ Sw Rf Vy I1 V1 H) as G2. pose proof (fun H => faithful_le k _ _ _ _ _ _ Sw Rf Vy I1' V1' H) as L2.
  pose proof (real_range u x' D) as Rr. set (z := real_fun u x') in *.
  assert (0 <= z -> 0 <= y) as P0. { intros [H|H]; [left; apply S1; assumption|right; symmetry; apply S3; symmetry; assumption]. }
  assert (1 <= Rabs z -> 1 <= Rabs y) as A1.
  { intros H. destruct (Rlt_or_le z 0) as [K|K]; [rewrite Rabs_left in H by assumption; specialize (L2 ltac:(lra)); rewrite Rabs_left by lra; lra|].
    rewrite Rabs_pos_eq in H by assumption. specialize (G2 H). rewrite Rabs_pos_eq by lra. assumption. }
  destruct u; cbn [range] in *; try exact I; auto; try (split; [apply G1 + apply P0 + apply S1|apply L1]; lra).
  all: destruct k; [split; [apply G1|apply L1]; lra|].
  all: split; [apply (faithful_ge Linear _ _ _ _ _ _ Sw Rf Vy I2' V2')|apply (faithful_le Linear _ _ _ _ _ _ Sw Rf Vy I2 V2)]; lra.
Qed.

Theorem inverse_real : forall k lm u v w t x, c99 lm -> w <> W64 -> undone_by u v -> is_intn (bits w) t -> value k (bits w) t = Some x -> regular k (bits w) u x ->
  exists r s z, api_unary k lm u w t = Val r /\ api_unary k lm v w r = Val s /\ value k (bits w) s = Some z.
Proof.
  intros k lm u v w t x C Nw Ud It Hx Rg. destruct (unary_range k lm u w t x C Nw It Hx Rg) as (r & y & E & Vy & Ry). exists r.
  assert (is_intn (bits w) r) as Ir.
  { destruct (unary_faithful_near k lm u w t x C Nw It Hx Rg) as (r' & x' & E' & _ & _ & Rf). assert (r' = r) as <- by congruence. destruct (narrow_bits w Nw) as [Sw _]. apply (faithful_value _ _ _ _ Sw Rf). }
  assert (regular k (bits w) v y) as Rv by (destruct Ud; cbn [range] in Ry; split; cbn; try exact I; tauto || lra).
  destruct (unary_range k lm v w r y C Nw Ir Vy Rv) as (s & z & E2 & Vz & _). exists s, z. repeat split; assumption.
Qed.

Theorem unary_between : forall lm u w t x a v, c99 lm -> w <> W64 -> argument_error u = 0 -> is_intn (bits w) t -> value Linear (bits w) t = Some x -> regular Linear (bits w) u x ->
  is_intn (bits w) a -> value Linear (bits w) a = Some v ->
  exists r y, api_unary Linear lm u w t = Val r /\ value Linear (bits w) r = Some y /\ (real_fun u x <= v -> y <= v) /\ (v <= real_fun u x -> v <= y).
Proof.
  intros lm u w t x a v C Nw Ha It Hx Rg Ia Va. destruct (unary_faithful lm u w t x C Nw Ha It Hx Rg) as (r & E & Rf). destruct (narrow_bits w Nw) as [Sw _].
  destruct (faithful_value _ _ _ _ Sw Rf) as (Ir & y & Vy & _). exists r, y. split; [assumption|]. split; [assumption|].
  split; intros H; [apply (faithful_le Linear _ _ _ _ _ _ Sw Rf Vy Ia Va H)|apply (faithful_ge Linear _ _ _ _ _ _ Sw Rf Vy Ia Va H)].
Qed.
(** non-trivial cases: 1 and 1/2 as takums *)
Lemma faithful_case : c99 ideal /\ is_intn 16 (2 ^ 14) /\ value Linear 16 (2 ^ 14) = Some 1 /\ value Logarithmic 16 (2 ^ 14) = Some 1 /\
  regular Linear 16 n_sin 1 /\ regular Logarithmic 16 n_sin 1 /\ argument_error n_sin = 0 /\ is_intn 16 (7 * 2 ^ 11) /\ value Linear 16 (7 * 2 ^ 11) = Some (/ 2) /\
  is_value2 n_hypotenuse 1 1 (sqrt (1 * 1 + 1 * 1)) /\ is_root 3 1 1.
Proof.
  split; [exact ideal_c99|]. assert (std_width 16) as Sw by (unfold std_width; tauto). destruct (value_one_k Linear 16 Sw) as [V1 I1]. destruct (value_one_k Logarithmic 16 Sw) as [V2 I2]. destruct (half_takum 16 Sw) as (V3 & I3 & _).
  split; [assumption|]. split; [assumption|]. split; [assumption|]. split; [split; exact I|]. split; [split; exact I|]. split; [reflexivity|]. split; [assumption|]. split; [assumption|].
  split; [reflexivity|]. unfold is_root. simpl. repeat split; intros; try lra; lia.
Qed.
