(** Odd and even functions: the wrappers. *)
From Coq Require Import ZArith Reals Bool Lia Lra.
From Flocq Require Import Core.Core IEEE754.BinarySingleNaN.
From Verif Require Import CModel FloatModel Libm LibmSpec Wrappers Conversion Codec Spec FloatSpec CodeFacts SpecFacts ValueFacts RoundFacts WidthFacts WidthApi WidthProps FloatFacts Machine LibmIdeal WrapApi WrapSpec LinApi LinProps LogConv FloatSym LogAlgebra WrapAcc3 WrapRefute ConstFacts WrapAcc WrapRoot FunSym.
Local Open Scope R_scope.

(** y = -x up to the signs of zeros and infinities *)
Definition opposite {F} (y x : flt F) : Prop :=
  y = fneg x \/ (exists s s', y = B754_zero s /\ x = B754_zero s') \/ (exists s s', y = B754_infinity s /\ x = B754_infinity s').
Definition opz {F} (y x : flt F) : Prop := y = fneg x \/ exists s s', y = B754_zero s /\ x = B754_zero s'.
Lemma opz_opp : forall F (y x : flt F), opz y x -> opposite y x.
Proof. intros F y x [H|H]; [left|right; left]; assumption. Qed.

Lemma opp_cast : forall F G (y x : flt F), opposite y x -> opposite (fcast G y) (fcast G x).
Proof.
  intros F G y x [->|[(s & s' & -> & ->)|(s & s' & -> & ->)]]; [left; apply fcast_neg|right; left|right; right]; exists s, s'; split; reflexivity.
Qed.
Lemma opz_cast : forall F G (y x : flt F), opz y x -> opposite (fcast G y) (fcast G x).
Proof. intros. apply opp_cast, opz_opp. assumption. Qed.

Lemma div_shapes : forall F (c : flt F) v, isf c v -> v <> 0 -> exists t,
  (forall s, fdiv (B754_zero s) c = B754_zero (xorb s t)) /\ (forall s, fdiv (B754_infinity s) c = B754_infinity (xorb s t)) /\
  (forall s, fdiv c (B754_zero s) = B754_infinity (xorb t s)) /\ (forall s, fdiv c (B754_infinity s) = B754_zero (xorb t s)).
Proof.
  intros F c v [Hf Hv] N. destruct c as [s|s| |s m e H]; try discriminate; [simpl in Hv; lra|]. exists s. repeat split.
Qed.
Lemma opp_inv : forall F (c y x : flt F) v, isf c v -> v <> 0 -> opposite y x -> opposite (fdiv c y) (fdiv c x).
Proof.
  intros F c y x v Hc N. destruct (div_shapes F c v Hc N) as (t & _ & _ & D1 & D2).
  intros [->|[(s & s' & -> & ->)|(s & s' & -> & ->)]]; [left; apply fdiv_neg_r|right; right|right; left]; rewrite ?D1, ?D2; do 2 eexists; split; reflexivity.
Qed.
Lemma opp_over : forall F (c y x : flt F) v, isf c v -> v <> 0 -> opposite y x -> opposite (fdiv y c) (fdiv x c).
Proof.
  intros F c y x v Hc N. destruct (div_shapes F c v Hc N) as (t & D1 & D2 & _ & _).
  intros [->|[(s & s' & -> & ->)|(s & s' & -> & ->)]]; [left; apply fdiv_neg_l|right; left|right; right]; rewrite ?D1, ?D2; do 2 eexists; split; reflexivity.
Qed.
Lemma feq_zero_neg : forall F (x : flt F), feq (fneg x) (fzero F) = feq x (fzero F).
Proof. intros F [s|s| |s m e H]; try reflexivity; destruct s; reflexivity. Qed.

Lemma fix_over_opz : forall F (a b y x : flt F), opz y x -> opposite (fix_over_odd F a y) (fix_over_odd F b x).
Proof.
  intros F a b y x [->|(s & s' & -> & ->)]; [|right; left; exists s, s'; split; reflexivity]. left.
  destruct x as [s|s| |s m e H]; try reflexivity. destruct s; cbn; [|reflexivity]. symmetry. apply fneg_neg.
Qed.
Lemma fix_csch_opp : forall F (a y x : flt F) v, isf a v -> v <> 0 -> opposite y x -> opposite (fix_csch F (fneg a) y) (fix_csch F a x).
Proof.
  intros F a y x v [Fa Va] N O. unfold fix_csch.
  assert (flt_ (fneg a) (fzero F) = negb (flt_ a (fzero F))) as E.
  { destruct a as [s|s| |s m e H]; try discriminate; [simpl in Va; lra|]. destruct s; reflexivity. }
  rewrite E. destruct O as [->|[(s & s' & -> & ->)|(s & s' & -> & ->)]].
  - rewrite feq_zero_neg. destruct (feq x (fzero F)); [|left; reflexivity]. left. destruct (flt_ a (fzero F)); simpl negb; cbv iota; [symmetry; apply fneg_neg|reflexivity].
  - assert (forall b, feq (B754_zero b : flt F) (fzero F) = true) as -> by (intros []; reflexivity). assert (forall b, feq (B754_zero b : flt F) (fzero F) = true) as -> by (intros []; reflexivity).
    left. destruct (flt_ a (fzero F)); simpl negb; cbv iota; [symmetry; apply fneg_neg|reflexivity].
  - right. right. exists s, s'. split; [destruct s|destruct s']; reflexivity.
Qed.

Section Sym.
Variable lm : libm.
Hypothesis S : symmetric lm.

Lemma sym_opz : forall g F (x : flt F), odd1 g = true -> g <> Ftan -> opz (m1 lm g (fneg x)) (m1 lm g x).
Proof.
  intros g F x Hg N. destruct (sym_odd lm S g F x Hg) as [H|[H|[H _]]]; [left; exact H|right; exact H|contradiction].
Qed.
Lemma sym_opp : forall g F (x : flt F), odd1 g = true -> opposite (m1 lm g (fneg x)) (m1 lm g x).
Proof. intros g F x Hg. destruct (sym_odd lm S g F x Hg) as [H|[H|[_ H]]]; [left|right; left|right; right]; exact H. Qed.

Lemma one_isf : forall F, isf (one F) 1.
Proof. intros F. apply isf_fint. destruct F; simpl; lia. Qed.
Lemma PI_isf : exists p, isf (PI_ x86_64) p /\ p <> 0.
Proof. destruct pi_gap as (p & Ip & _ & Hp & _). exists p. split; [exact Ip|]. pose proof PI_RGT_0. pose proof (bpow_gt_0 radix2 (-66)). lra. Qed.
Lemma opp_1 : forall F (y x : flt F), opposite y x -> opposite (fdiv (one F) y) (fdiv (one F) x).
Proof. intros F y x. apply (opp_inv F (one F) y x 1); [apply one_isf|lra]. Qed.
Lemma opp_pi : forall (y x : flt f80), opposite y x -> opposite (fdiv y (PI_ x86_64)) (fdiv x (PI_ x86_64)).
Proof. intros y x. destruct PI_isf as (p & Ip & Np). apply (opp_over f80 _ y x p Ip Np). Qed.

(** residues of numbers that are not half-integers *)
Definition no_half (a : R) : Prop := forall j : Z, 2 * a <> IZR j.
Lemma no_half_neg : forall a, no_half a -> no_half (- a).
Proof. intros a H j E. apply (H (- j)%Z). rewrite opp_IZR. lra. Qed.

Lemma mod2_no : forall (x : flt f80) a c v j, isf x a -> no_half a -> isf c v -> 2 * v = IZR j -> feq (ffmod x (two f80)) c = false.
Proof.
  intros x a c v j Ix N Ic Ej. destruct (mod2 x a Ix) as (r & k & Ir & Ea & _). rewrite (feq_isf _ _ _ _ Ir Ic).
  destruct (Req_bool_spec r v) as [E|E]; [|reflexivity]. exfalso. apply (N (j + 4 * k)%Z). rewrite plus_IZR, mult_IZR. lra.
Qed.
Lemma mod1_no : forall (x : flt f80) a c v j, isf x a -> no_half a -> isf c v -> 2 * v = IZR j -> feq (ffmod x (one f80)) c = false.
Proof.
  intros x a c v j Ix N Ic Ej. destruct (mod1 x a Ix) as (r & k & Ir & Ea & _). rewrite (feq_isf _ _ _ _ Ir Ic).
  destruct (Req_bool_spec r v) as [E|E]; [|reflexivity]. exfalso. apply (N (j + 2 * k)%Z). rewrite plus_IZR, mult_IZR. lra.
Qed.

Lemma pi_forms : forall (x : flt f80) a, isf x a -> no_half a ->
  sinpil x86_64 lm x = m1 lm Fsin (fmul (PI_ x86_64) x) /\ cospil x86_64 lm x = m1 lm Fcos (fmul (PI_ x86_64) x) /\
  tanpil x86_64 lm x = m1 lm Ftan (fmul (PI_ x86_64) x) /\ cot_pi_timesl x86_64 lm x = cotl x86_64 lm (fmul (PI_ x86_64) x) /\
  sec_pi_timesl x86_64 lm x = secl x86_64 lm (fmul (PI_ x86_64) x) /\ csc_pi_timesl x86_64 lm x = cscl x86_64 lm (fmul (PI_ x86_64) x).
Proof.
  intros x a Ix N.
  pose proof (mod2_no x a (fzero f80) 0 0 Ix N (FloatFacts.isf_zero f80) ltac:(lra)) as A0.
  pose proof (mod2_no x a (half f80) (/ 2) 1 Ix N isf_half ltac:(lra)) as A1.
  pose proof (mod2_no x a (one f80) 1 2 Ix N (one_isf f80) ltac:(lra)) as A2.
  pose proof (mod2_no x a (three_halves f80) (3 / 2) 3 Ix N isf_3half ltac:(lra)) as A3.
  pose proof (mod1_no x a (fzero f80) 0 0 Ix N (FloatFacts.isf_zero f80) ltac:(lra)) as B0.
  pose proof (mod1_no x a (half f80) (/ 2) 1 Ix N isf_half ltac:(lra)) as B1.
  unfold sinpil, cospil, tanpil, cot_pi_timesl, sec_pi_timesl, csc_pi_timesl. change (ld x86_64) with f80.
  rewrite A0, A1, A2, A3, B0, B1. repeat split.
Qed.

Lemma cast_neg1 : forall (x : flt f64) , fcast (ld x86_64) (fneg x) = fneg (fcast (ld x86_64) x).
Proof. intros. apply fcast_neg. Qed.

Lemma odd_ld : forall u (x : flt f80) a, isf x a -> a <> 0 -> (pi_fun u = true -> no_half a) -> odd_name u = true ->
  opposite (unary_ld x86_64 lm u (fneg x)) (unary_ld x86_64 lm u x) /\
  ((u = n_sinh \/ u = n_arsinh) -> opz (unary_ld x86_64 lm u (fneg x)) (unary_ld x86_64 lm u x)).
Proof.
  intros u x a Ix Na Hp Hu. split; [|intros [-> | ->]; apply sym_opz; (reflexivity || discriminate)].
  assert (opposite (fneg x) x) as Ox by (left; reflexivity).
  assert (pi_fun u = true -> opposite (unary_ld x86_64 lm u (fneg x)) (unary_ld x86_64 lm u x)) as P.
  { intros Pu. specialize (Hp Pu). destruct (pi_forms x a Ix Hp) as (E1 & E2 & E3 & E4 & E5 & E6).
    destruct (pi_forms (fneg x) (- a) (isf_fneg _ _ Ix) (no_half_neg a Hp)) as (F1 & F2 & F3 & F4 & F5 & F6).
    destruct u; try discriminate Pu; try discriminate Hu; cbn [unary_ld]; rewrite ?E1, ?E3, ?E4, ?E6, ?F1, ?F3, ?F4, ?F6, fmul_neg_r;
      unfold cotl, cscl; change (ld x86_64) with f80; repeat apply opp_1; apply sym_opp; reflexivity. }
  destruct (pi_fun u) eqn:Pu; [apply P; reflexivity|]. clear P Hp.
  assert (forall g F (y z : flt F), odd1 g = true -> y = fneg z -> opposite (m1 lm g y) (m1 lm g z)) as M by (intros g F y z Hg ->; apply sym_opp; assumption).
  assert (fdiv (one f80) (fneg x) = fneg (fdiv (one f80) x)) as D by apply fdiv_neg_r.
  assert (fcast f64 (fdiv (one f80) (fneg x)) = fneg (fcast f64 (fdiv (one f80) x))) as DC by (rewrite D; apply fcast_neg).
  destruct u; try discriminate Pu; try discriminate Hu; cbn [unary_ld].
  - apply M; reflexivity.
  - apply M; reflexivity.
  - unfold cotl. apply opp_1, M; reflexivity.
  - unfold cscl. apply opp_1, M; reflexivity.
  - apply M; reflexivity.
  - unfold arcsin_over_pil. apply opp_pi, M; reflexivity.
  - apply M; reflexivity.
  - unfold arctanpil. apply opp_pi, M; reflexivity.
  - unfold arccscl. apply M; [reflexivity|exact D].
  - unfold arccsc_over_pil. apply opp_pi, M; [reflexivity|exact D].
  - apply M; reflexivity.
  - apply M; reflexivity.
  - unfold cothl. apply opp_1, M; reflexivity.
  - unfold cschl. apply opp_1, M; reflexivity.
  - apply M; reflexivity.
  - apply M; reflexivity.
  - unfold arcothl. apply opp_cast, M; [reflexivity|exact DC].
  - unfold arcschl. apply opp_cast, M; [reflexivity|exact DC].
Qed.

Lemma odd_fixed : forall F u (x : flt F) a fl, isf x a -> a <> 0 -> odd_name u = true ->
  opposite (fl (fneg x)) (fl x) -> ((u = n_sinh \/ u = n_arsinh) -> opz (fl (fneg x)) (fl x)) ->
  opposite (unary_fixer u F (fneg x) (fl (fneg x))) (unary_fixer u F x (fl x)).
Proof.
  intros F u x a fl Ix Na Hu O Z. destruct u; try discriminate Hu; cbn [unary_fixer]; try exact O.
  - apply fix_over_opz, Z. auto.
  - apply (fix_csch_opp F x _ _ a Ix Na O).
  - apply fix_over_opz, Z. auto.
Qed.

Lemma odd_double : forall u (x : flt f64) a, isf x a -> a <> 0 -> (pi_fun u = true -> no_half a) -> odd_name u = true ->
  opposite (unary_double x86_64 lm u (fneg x)) (unary_double x86_64 lm u x) /\
  ((u = n_sinh \/ u = n_arsinh) -> opz (unary_double x86_64 lm u (fneg x)) (unary_double x86_64 lm u x)).
Proof.
  intros u x a Ix Na Hp Hu. assert (isf (fcast (ld x86_64) x) a) as Ic by (apply isf_fcast_up; [split; simpl; lia|assumption]).
  destruct (odd_ld u _ a Ic Na Hp Hu) as [O _]. rewrite <- cast_neg1 in O. pose proof (opp_cast f80 f64 _ _ O) as V. clear O.
  split; [|intros [-> | ->]; apply sym_opz; (reflexivity || discriminate)].
  destruct u; try discriminate Hu; cbn [unary_double]; solve [apply sym_opp; reflexivity | exact V].
Qed.

Lemma even_ld : forall u (x : flt f80) a, isf x a -> (pi_fun u = true -> no_half a) -> even_name u = true ->
  unary_ld x86_64 lm u (fneg x) = unary_ld x86_64 lm u x.
Proof.
  intros u x a Ix Hp Hu. assert (forall g F (z : flt F), even1 g = true -> m1 lm g (fneg z) = m1 lm g z) as M by (intros; apply sym_even; assumption).
  destruct (pi_fun u) eqn:Pu.
  - specialize (Hp eq_refl). destruct (pi_forms x a Ix Hp) as (E1 & E2 & E3 & E4 & E5 & E6).
    destruct (pi_forms (fneg x) (- a) (isf_fneg _ _ Ix) (no_half_neg a Hp)) as (F1 & F2 & F3 & F4 & F5 & F6).
    destruct u; try discriminate Pu; try discriminate Hu; cbn [unary_ld].
    + rewrite E2, F2, fmul_neg_r. apply M. reflexivity.
    + rewrite E5, F5, fmul_neg_r. unfold secl. rewrite M by reflexivity. reflexivity.
  - destruct u; try discriminate Pu; try discriminate Hu; cbn [unary_ld].
    + apply M. reflexivity.
    + unfold secl. rewrite M by reflexivity. reflexivity.
    + apply M. reflexivity.
    + unfold sech_. rewrite M by reflexivity. reflexivity.
Qed.
Lemma even_double : forall u (x : flt f64) a, isf x a -> (pi_fun u = true -> no_half a) -> even_name u = true ->
  unary_double x86_64 lm u (fneg x) = unary_double x86_64 lm u x.
Proof.
  intros u x a Ix Hp Hu. assert (isf (fcast (ld x86_64) x) a) as Ic by (apply isf_fcast_up; [split; simpl; lia|assumption]).
  pose proof (even_ld u _ a Ic Hp Hu) as E. rewrite <- cast_neg1 in E.
  assert (forall g F (z : flt F), even1 g = true -> m1 lm g (fneg z) = m1 lm g z) as M by (intros; apply sym_even; assumption).
  destruct u; try discriminate Hu; cbn [unary_double]; try (apply M; reflexivity); try (unfold via_ld; rewrite E; reflexivity).
  unfold sech_. rewrite M by reflexivity. reflexivity.
Qed.
Lemma even_fixer : forall u F (x y r : flt F), even_name u = true -> unary_fixer u F x r = unary_fixer u F y r.
Proof. intros u F x y r Hu. destruct u; try discriminate Hu; reflexivity. Qed.

(** ** Conversions *)
Lemma lin_to_sym : forall n F h t x, linear_to_float n F h -> exact_pair n F -> is_intn n t -> value Linear n t = Some x -> x <> 0 ->
  exists y, h t = Val y /\ isf y x /\ h (- t)%Z = Val (fneg y).
Proof.
  intros n F h t x H HE It Vx Nx. pose proof (to_std _ _ _ H) as Hs. pose proof (std_range n Hs) as Hn.
  destruct (lin_to_exact n F h t H HE It) as (y & Ey & Vy). rewrite Vx in Vy. destruct Vy as (V1 & V2 & _).
  assert (t <> nar n) as Nt by (intros ->; rewrite value_nar in Vx by lia; discriminate).
  destruct (negation_negates Linear n t Hs It Nt) as (In & Nn & x' & Vx' & Vn). rewrite Vx in Vx'. assert (x' = x) as -> by congruence.
  destruct (lin_to_exact n F h _ H HE In) as (z & Ez & Vz). rewrite Vn in Vz. destruct Vz as (W1 & W2 & _).
  exists y. split; [assumption|]. split; [split; assumption|]. rewrite Ez. f_equal.
  apply (isf_inj F _ _ (- x)); [split; assumption|apply isf_fneg; split; assumption|lra].
Qed.
Lemma lin_from_opp : forall n F g (y x : flt F), linear_from_float n F g -> ~ (n = 16%Z /\ F = f80) -> opposite y x ->
  exists r, g x = Val r /\ (r <> nar n -> g y = Val (- r)%Z) /\ (r = nar n -> g y = Val (nar n)).
Proof.
  intros n F g y x H HE O. pose proof (std_range n (from_std _ _ _ H)) as Hn. destruct (lin_from_specials n F g x H) as (r & Er & Ir & Z0 & ZN & _).
  destruct (lin_from_specials n F g y H) as (q & Eq & Iq & Y0 & YN & _).
  exists r. split; [assumption|]. destruct (is_finite x) eqn:Fx.
  - assert (r <> nar n) as Nr by (intros E; apply ZN in E; discriminate E). split; [intros _|contradiction].
    destruct O as [->|[(s & s' & -> & ->)|(s & s' & -> & ->)]].
    + apply (lin_from_odd n F g x r H HE Fx Er).
    + assert (r = 0%Z) as -> by (apply Z0; eauto). assert (q = 0%Z) as -> by (apply Y0; eauto). exact Eq.
    + discriminate Fx.
  - assert (r = nar n) as Er' by (apply ZN; reflexivity). split; [contradiction|intros _]. rewrite Eq. f_equal. apply YN.
    destruct O as [->|[(s & s' & -> & ->)|(s & s' & -> & ->)]]; [unfold fneg; rewrite is_finite_Bopp; assumption|discriminate Fx|reflexivity].
Qed.

Definition half_integer (x : R) : Prop := exists j : Z, 2 * x = IZR j.
Lemma not_half : forall x, ~ half_integer x -> no_half x.
Proof. intros x H j E. apply H. exists j. exact E. Qed.

Lemma lin_double_cases : forall w, w = W64 \/ (linear_to_float (bits w) f64 (lin_to_double x86_64 w) /\ linear_from_float (bits w) f64 (lin_from_double x86_64 w) /\ exact_pair (bits w) f64 /\
  forall fd fl fx t, unary_lin x86_64 fd fl fx w t = bind (lin_to_double x86_64 w t) (fun y => lin_from_double x86_64 w (fx f64 y (fd y)))).
Proof. intros []; [right|right|right|left; reflexivity]; (split; [constructor|split; [constructor|split; [right; split; [reflexivity|discriminate]|reflexivity]]]). Qed.

Lemma linear_odd : forall u w t x, odd_name u = true -> is_intn (bits w) t -> value Linear (bits w) t = Some x -> x <> 0 ->
  (pi_fun u = true -> ~ half_integer x) ->
  exists r, api_unary Linear lm u w t = Val r /\ (r <> nar (bits w) -> api_unary Linear lm u w (- t) = Val (- r)%Z) /\
    (r = nar (bits w) -> api_unary Linear lm u w (- t) = Val (nar (bits w))).
Proof.
  intros u w t x Hu It Vx Nx Hp. assert (pi_fun u = true -> no_half x) as Hp' by (intros; apply not_half; auto).
  cbn [api_unary]. unfold takum_linear_unary. destruct (lin_double_cases w) as [->|(Ht & Hf & HE & Eu)].
  2: { rewrite !Eu. destruct (lin_to_sym _ _ _ t x Ht HE It Vx Nx) as (y & Ey & Iy & En). rewrite Ey, En. cbn [bind].
    destruct (odd_double u y x Iy Nx Hp' Hu) as [O Z]. apply (lin_from_opp _ _ _ _ _ Hf); [intros [_ K]; discriminate K|apply (odd_fixed f64 u y x); assumption]. }
  unfold unary_lin. cbn [bits] in *.
  destruct (lin_to_sym 64 f80 (lin_to_ld x86_64 W64) t x ltac:(constructor) ltac:(left; reflexivity) It Vx Nx) as (y & Ey & Iy & En).
  rewrite Ey, En. cbn [bind]. destruct (odd_ld u y x Iy Nx Hp' Hu) as [O Z].
  apply (lin_from_opp 64 f80 (lin_from_ld x86_64 W64)); [constructor|intros [K _]; discriminate K|apply (odd_fixed f80 u y x); assumption].
Qed.

Lemma linear_even : forall u w t x, even_name u = true -> is_intn (bits w) t -> value Linear (bits w) t = Some x ->
  (pi_fun u = true -> ~ half_integer x) -> api_unary Linear lm u w (- t) = api_unary Linear lm u w t.
Proof.
  intros u w t x Hu It Vx Hp. assert (pi_fun u = true -> no_half x) as Hp' by (intros; apply not_half; auto).
  destruct (Z.eq_dec t 0) as [->|N0]; [reflexivity|].
  assert (x <> 0) as Nx. { intros ->. apply N0. eapply value_zero_iff; [exact It| |exact Vx]. destruct w; simpl; lia. }
  cbn [api_unary]. unfold takum_linear_unary. destruct (lin_double_cases w) as [->|(Ht & Hf & HE & Eu)].
  2: { rewrite !Eu. destruct (lin_to_sym _ _ _ t x Ht HE It Vx Nx) as (y & Ey & Iy & En). rewrite Ey, En. cbn [bind].
    rewrite (even_double u y x Iy Hp' Hu). f_equal. apply even_fixer. assumption. }
  unfold unary_lin. cbn [bits] in *.
  destruct (lin_to_sym 64 f80 (lin_to_ld x86_64 W64) t x ltac:(constructor) ltac:(left; reflexivity) It Vx Nx) as (y & Ey & Iy & En).
  rewrite Ey, En. cbn [bind]. change (ld x86_64) with f80. rewrite (even_ld u y x Iy Hp' Hu). f_equal. apply even_fixer. assumption.
Qed.
End Sym.

(** logarithmic takums *)
Lemma log_even : forall lm u w t x, c99 lm -> symmetric lm -> even_name u = true -> is_intn (bits w) t -> value Logarithmic (bits w) t = Some x ->
  pi_fun u = false -> api_unary Logarithmic lm u w (- t) = api_unary Logarithmic lm u w t.
Proof.
  intros lm u w t x C S Hu It Vx Hp. destruct (Z.eq_dec t 0) as [->|N0]; [reflexivity|].
  assert (8 <= bits w <= 64)%Z as Hn by (destruct w; simpl; lia).
  assert (t <> nar (bits w)) as Nt by (intros ->; rewrite value_nar in Vx by lia; discriminate).
  assert (log_to_float lm (bits w) f80 (log_to_ld x86_64 lm w)) as Hh by (destruct w; constructor).
  destruct (log_to_ld_real lm (bits w) _ t C Hh ltac:(split; [assumption|split; assumption])) as (y & p & Ey & Iy & _).
  pose proof (log_to_neg lm (bits w) f80 _ t y C Hh It N0 Nt Ey) as En.
  cbn [api_unary]. unfold takum_unary, unary_log. rewrite Ey, En. cbn [bind]. change (ld x86_64) with f80.
  rewrite (even_ld lm S u y _ Iy ltac:(intros K; congruence) Hu). f_equal. apply even_fixer. assumption.
Qed.
