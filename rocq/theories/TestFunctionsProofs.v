(** Proofs about the test programs for the elementary functions. *)
From Coq Require Import ZArith Reals Bool Lia Lra List.
From Flocq Require Import Core.Core IEEE754.BinarySingleNaN.
From Verif Require Import CModel FloatModel Libm LibmSpec Arith Codec Spec FloatSpec CodeFacts SpecFacts ValueFacts RoundFacts
  WidthFacts WidthProps FloatFacts EncodeFacts Machine Conversion Wrappers LinApi LinFacts LinProps LogApi LogProps LogConv LogAlgebra NearFacts NearCode WrapSpec LinOps LinArith WrapApi WrapTotal WrapNar
  RealBounds RealFacts FloatAcc FixFacts WrapAcc WrapAcc2 WrapAcc3 WrapMain WrapDom WrapTrig WrapPi WrapExact Faithful
  Agree TestHarness HarnessSpec HarnessProofs HarnessResults TestBlocksSpec TestBlocks TestBlocksProofs TestPrograms TestProgramsProofs TestProgramsMisc TestFunctions.
From Verif Require MonoBin LinDec.
Local Open Scope R_scope.

Lemma some_same : forall A (a b : A), Some a = Some b -> b = a.
Proof. intros A a b H. exact (f_equal (fun o => match o with Some c => c | None => a end) (eq_sym H)). Qed.
Lemma reference_is : forall lm u r, reference_function lm u = Some r -> low_ok u = false /\ high_ok u = false /\ forall x, r x = unary_ld x86_64 lm u x.
Proof.
  intros lm u r H. destruct u; cbn [reference_function] in H; try (match type of H with None = _ => discriminate H end); apply some_same in H; subst r;
    (split; [reflexivity|]; split; [reflexivity|]; intros x; reflexivity).
Qed.

(** ** The result in long double *)
Lemma side_plain : forall u a R_, low_ok u = false -> high_ok u = false -> side u a R_ -> R_ = 0 \/ win 900 R_.
Proof. intros u a R_ Lo Hi [[H _]|[H|[(_ & _ & H & _)|(_ & H & _)]]]; auto; congruence. Qed.
Definition in_range (z : flt f80) : Prop := is_finite z = false \/ exists r, isf z r /\ (r = 0 \/ win 950 r).
Lemma acc_range : forall e R_ (z : flt f80), acc e f80 R_ z -> 0 <= e <= bpow radix2 (-48) -> R_ = 0 \/ win 900 R_ -> exists r, isf z r /\ (r = 0 \/ win 950 r) /\ Rabs (r - R_) <= e * Rabs R_.
Proof.
  intros e R_ z (r & Ir & Hr) He H. exists r. split; [assumption|]. split; [|assumption]. destruct H as [-> |[W1 W2]].
  - left. rewrite Rabs_R0, Rmult_0_r, Rminus_0_r in Hr. apply Rabs_eq_R0. pose proof (Rabs_pos r). lra.
  - right. assert (bpow radix2 (-48) <= / 4) as B by (replace (/ 4) with (bpow radix2 (-2)) by (simpl; lra); apply bpow_le; lia).
    pose proof (bpow_gt_0 radix2 (-900)) as P. assert (e * Rabs R_ <= / 4 * Rabs R_) as E by (apply Rmult_le_compat_r; [apply Rabs_pos|lra]).
    assert (Rabs r <= Rabs (r - R_) + Rabs R_) as T1 by (replace r with ((r - R_) + R_) at 1 by ring; apply Rabs_triang).
    assert (Rabs R_ <= Rabs (r - R_) + Rabs r) as T2 by (replace R_ with (- (r - R_) + r) at 1 by ring; eapply Rle_trans; [apply Rabs_triang|rewrite Rabs_Ropp; lra]).
    assert (bpow radix2 (- (900)) = 2 * bpow radix2 (-901)) as E1 by (change (- (900))%Z with (1 + -901)%Z; rewrite bpow_plus; reflexivity).
    assert (bpow radix2 901 = 2 * bpow radix2 900) as E2 by (change 901%Z with (1 + 900)%Z; rewrite bpow_plus; reflexivity).
    assert (bpow radix2 (- (950)) <= bpow radix2 (-901)) as E3 by (apply bpow_le; lia). assert (bpow radix2 901 <= bpow radix2 950) as E4 by (apply bpow_le; lia).
    split; lra.
Qed.
Lemma eu_rng : forall u, 0 <= eu u <= bpow radix2 (-48).
Proof. intros u. destruct u; unfold eu, e8, e9; (split; [apply bpow_ge_0|apply bpow_le; lia]). Qed.
Lemma isf_same : forall F (x y : flt F) a, isf x a -> isf y a -> (a = 0 -> x = y) -> x = y.
Proof.
  intros F x y a [Fx Vx] [Fy Vy] H. destruct (Req_dec a 0) as [E|E]; [auto|]. apply B2R_inj; [| |congruence].
  - destruct x; try discriminate; try reflexivity. simpl in Vx. congruence.
  - destruct y; try discriminate; try reflexivity. simpl in Vy. congruence.
Qed.

(** ** Linear takums of at most 32 bits: a double and a long double *)
Section Narrow.
Variable lm : libm.
Hypothesis C : c99 lm.
Variable w : Wrappers.width.
Hypothesis Nw : w <> W64.
Let n := bits w.
Definition lin_reference (u : unary_name) (t : Z) : outcome Z := let! y := lin_to_ld x86_64 w t in lin_from_ld x86_64 w (unary_ld x86_64 lm u y).
Definition agree (u : unary_name) (t : Z) : Prop :=
  exists o e, api_unary Linear lm u w t = Val o /\ lin_reference u t = Val e /\ (Z.abs (o - e) <= 1)%Z.
Lemma agree_nar : forall u t, api_unary Linear lm u w t = Val (nar n) -> lin_reference u t = Val (nar n) -> agree u t.
Proof. intros u t A B. exists (nar n), (nar n). repeat split; try assumption. rewrite Z.sub_diag. cbn. lia. Qed.
Lemma ref_inf : forall u t y, lin_to_ld x86_64 w t = Val y -> is_finite (unary_ld x86_64 lm u y) = false -> lin_reference u t = Val (nar n).
Proof. intros u t y E H. unfold lin_reference. rewrite E. cbn [bind]. apply (from_float_nar lm Linear _ f80); [apply from_float_lin; apply lin_ld_from|exact H]. Qed.

(** the double is the rounded long double *)
Lemma cast_agree : forall u t x y, unary_double x86_64 lm u = via_ld x86_64 (unary_ld x86_64 lm u) -> unary_fixer u = fix1_none ->
  is_intn n t -> value Linear n t = Some x -> lin_to_ld x86_64 w t = Val y -> isf y x -> (x = 0 -> y = B754_zero false) ->
  in_range (unary_ld x86_64 lm u y) -> agree u t.
Proof.
  intros u t x y Ed Ef It Hx Ey Iy Z0 Rg. destruct (dbl_arg w t x Nw It Hx) as (yd & Eyd & Iyd & _ & Zd).
  assert (fcast f80 yd = y) as Ec.
  { apply (isf_same f80 _ _ x); [apply isf_fcast_up; [split; vm_compute; discriminate|assumption]|assumption|]. intros E. rewrite (Z0 E), (Zd E). reflexivity. }
  assert (api_unary Linear lm u w t = lin_from_double x86_64 w (fcast f64 (unary_ld x86_64 lm u y))) as EA.
  { cbn [api_unary]. unfold takum_linear_unary. rewrite Ed, Ef. unfold unary_lin, via_ld. destruct w; try contradiction; rewrite Eyd; cbn [bind]; unfold fix1_none; change (ld x86_64) with f80; rewrite Ec; reflexivity. }
  destruct Rg as [H|(r & Ir & Hr)].
  - apply agree_nar; [|apply (ref_inf u t y Ey H)]. rewrite EA. apply (from_float_nar lm Linear _ f64); [apply from_float_lin; apply lin_d_from|]. apply cast_inf. exact H.
  - destruct (narrow_bits w Nw) as [Sw Lw]. assert (0 <= bpow radix2 (-53) <= bpow radix2 (-48)) as B by (split; [apply bpow_ge_0|apply bpow_le; lia]).
    destruct (acc_round 0 (bpow radix2 (-53)) f64 r r w64) as [A1 A2]; [rewrite Rminus_eq_0, Rabs_R0; lra|lra|assumption|change (- fprec f64)%Z with (-53)%Z; lra|].
    pose proof (isf_fcast _ f64 _ _ Ir A2) as Id. set (z := unary_ld x86_64 lm u y) in *.
    destruct (lin_from_near _ _ _ (fcast f64 z) (lin_d_from w) ltac:(discriminate) (proj1 Id)) as (o & Eo & Ro).
    destruct (lin_from_near _ _ _ z (lin_ld_from w) ltac:(discriminate) (proj1 Ir)) as (e & Ee & Re).
    replace (B2R (fcast f64 z)) with (RF f64 r) in Ro by (symmetry; exact (proj2 Id)). replace (B2R z) with r in Re by (symmetry; exact (proj2 Ir)). exists o, e. split; [rewrite EA; exact Eo|]. split; [unfold lin_reference; rewrite Ey; exact Ee|].
    apply (faithful_unit Linear n r); [exact Sw| |].
    + apply (near_faith Linear n (bpow radix2 (-53)) (RF f64 r)); assumption.
    + apply (near_faith Linear n 0 r); try assumption; [pose proof (bpow_ge_0 radix2 (-48)); lra|rewrite Rminus_eq_0, Rabs_R0; lra].
Qed.

Lemma regular_range : forall u t x y, low_ok u = false -> high_ok u = false -> is_intn n t -> value Linear n t = Some x -> lin_to_ld x86_64 w t = Val y -> isf y x -> (x = 0 -> y = B754_zero false) ->
  regular Linear n u x -> exists x' r, Rabs (x' - x) <= argument_error u * Rabs x /\ isf (unary_ld x86_64 lm u y) r /\ (r = 0 \/ win 950 r) /\ Rabs (r - real_fun u x') <= eu u * Rabs (real_fun u x').
Proof.
  intros u t x y Lo Hi It Hx Ey Iy Z0 Rg. destruct (dbl_arg w t x Nw It Hx) as (_ & _ & _ & A & _).
  destruct (core_ld lm C u Linear y x x Iy Z0 A (conv_lin x) (regular_64 Linear w t x u It Hx Rg)) as (x' & D & _ & (N & _) & S).
  pose proof (side_plain u x _ Lo Hi S) as S'. destruct (acc_range _ _ _ (N S') (eu_rng u) S') as (r & Ir & Hr & Dr). exists x', r. auto.
Qed.
Lemma direct_agree : forall u t x y, low_ok u = false -> high_ok u = false -> argument_error u = 0 -> is_intn n t -> value Linear n t = Some x -> lin_to_ld x86_64 w t = Val y -> isf y x -> (x = 0 -> y = B754_zero false) ->
  regular Linear n u x -> agree u t.
Proof.
  intros u t x y Lo Hi Ae It Hx Ey Iy Z0 Rg. destruct (regular_range u t x y Lo Hi It Hx Ey Iy Z0 Rg) as (x' & r & D & Ir & _ & Dr).
  apply no_dist in D; [|rewrite Ae; lra]. subst x'. destruct (narrow_bits w Nw) as [Sw Lw].
  destruct (unary_faithful lm u w t x C Nw Ae It Hx Rg) as (o & Eo & Fo).
  destruct (lin_from_near _ _ _ (unary_ld x86_64 lm u y) (lin_ld_from w) ltac:(discriminate) (proj1 Ir)) as (e & Ee & Re). replace (B2R (unary_ld x86_64 lm u y)) with r in Re by (symmetry; exact (proj2 Ir)).
  exists o, e. split; [exact Eo|]. split; [unfold lin_reference; rewrite Ey; exact Ee|].
  apply (faithful_unit Linear n (real_fun u x)); [exact Sw|exact Fo|]. apply (near_faith Linear n (eu u) r); try assumption. apply eu_rng.
Qed.

(** the functions of pi times x *)
Lemma base_range : forall b (y : flt f80) a, isf y a -> (a = 0 -> y = B754_zero false) -> a = 0 \/ win 260 a -> trigonometric b = true -> pi_fun b = false -> in_range (unary_ld x86_64 lm b y).
Proof.
  intros b y a Iy Z0 Ha T Pf. assert ((b = n_cot \/ b = n_csc) /\ a = 0 \/ regular Linear 64 b a) as [[Hb ->]|Rg].
  { destruct (Req_dec a 0) as [E|E]; destruct b; try discriminate T; try discriminate Pf; try (left; split; [tauto|assumption]); right; (split; [cbn [applicable]; try exact I; assumption|exact I]). }
  - left. apply cot_csc_inf; assumption.
  - destruct (core_ld lm C b Linear y a a Iy Z0 (arg_self a Ha) (conv_lin a) Rg) as (x' & _ & _ & (N & _) & S).
    assert (low_ok b = false /\ high_ok b = false) as [Lo Hi] by (destruct b; try discriminate T; split; reflexivity).
    pose proof (side_plain b a _ Lo Hi S) as S'. destruct (acc_range _ _ _ (N S') (eu_rng b) S') as (r & Ir & Hr & _). right. exists r. auto.
Qed.
Lemma pi_range : forall u (y : flt f80) x, pi_fun u = true -> isf y x -> (x = 0 -> y = B754_zero false) -> operand n x -> in_range (unary_ld x86_64 lm u y).
Proof.
  intros u y x Pf Iy Z0 (_ & _ & Hx).
  assert (forall b, trigonometric b = true -> pi_fun b = false -> in_range (unary_ld x86_64 lm b (fmul (PI_ x86_64) y))) as P.
  { intros b T Pb. destruct (Req_dec x 0) as [E|E].
    - rewrite (Z0 E). apply (base_range b _ 0); try assumption; [|intros _; vm_compute; reflexivity|left; reflexivity].
      apply (eq_ind_r (fun z : flt f80 => isf z 0) (FloatFacts.isf_zero f80)). vm_compute. reflexivity.
    - specialize (Hx E). assert (win 260 x) as Wx by (split; (eapply Rle_trans; [|apply Hx]) || (eapply Rle_trans; [apply Hx|]); apply bpow_le; lia).
      destruct (pi_arg y x x Iy (arg_self x (or_intror Wx)) E) as (c & Ic & Wc & Dc). pose proof PI_bounds as PB.
      assert (Rabs (c / PI - x) <= / 2 * Rabs x) as Dh.
      { eapply Rle_trans; [exact Dc|]. apply Rmult_le_compat_r; [apply Rabs_pos|]. replace (/ 2) with (bpow radix2 (-1)) by (simpl; lra). apply bpow_le. lia. }
      assert (Rabs c = PI * Rabs (c / PI)) as Ec by (unfold Rdiv; rewrite Rabs_mult, Rabs_inv, (Rabs_pos_eq PI) by lra; field; lra).
      pose proof (Rabs_triang (c / PI - x) x) as T1. replace (c / PI - x + x) with (c / PI) in T1 by ring. pose proof (Rabs_triang (x - c / PI) (c / PI)) as T2. replace (x - c / PI + c / PI) with x in T2 by ring. rewrite Rabs_minus_sym in T2.
      set (m := Rabs (c / PI)) in *. pose proof (bpow_gt_0 radix2 (-255)) as B0.
      assert (win 260 c) as Wc'.
      { assert (bpow radix2 (- (260)) <= bpow radix2 (-255)) as E1 by (apply bpow_le; lia). assert (bpow radix2 260 = 16 * bpow radix2 256) as E2 by (change 260%Z with (4 + 256)%Z; rewrite bpow_plus; reflexivity).
        split; rewrite Ec; nra. }
      apply (base_range b _ c Ic); try assumption; [|right; assumption]. intros Z. exfalso. apply (win_nz _ _ Wc'). assumption. }
  assert (in_range (fzero f80)) as R0 by (right; exists 0; split; [apply FloatFacts.isf_zero|left; reflexivity]).
  assert (in_range (one f80)) as R1 by (right; exists 1; split; [apply isf_one|right; apply (win_weaken 900 950); [apply win_1|lia]]).
  assert (in_range (fneg (one f80))) as Rm by (right; exists (-1); split; [apply isf_m1|right; apply (win_weaken 900 950); [apply (win_opp 900 1), win_1|lia]]).
  assert (in_range (fnan f80)) as Rn by (left; reflexivity).
  destruct u; try discriminate Pf; cbn [unary_ld]; unfold sinpil, cospil, tanpil, cot_pi_timesl, sec_pi_timesl, csc_pi_timesl; change (ld x86_64) with f80; cbv zeta;
    repeat (match goal with |- in_range (if ?c then _ else _) => destruct c end); try assumption.
  - exact (P n_sin eq_refl eq_refl).
  - exact (P n_cos eq_refl eq_refl).
  - exact (P n_tan eq_refl eq_refl).
  - exact (P n_cot eq_refl eq_refl).
  - exact (P n_sec eq_refl eq_refl).
  - exact (P n_csc eq_refl eq_refl).
Qed.

Lemma narrow_agree : forall u t, low_ok u = false -> high_ok u = false -> is_intn n t -> agree u t.
Proof.
  intros u t Lo Hi It. destruct (ld_operand w t It) as (y & Ey & H). fold n in H. destruct (value Linear n t) as [x|] eqn:Hx.
  - destruct H as (Iy & Op & Fy & Z0). destruct (pi_fun u) eqn:Pf.
    { apply (cast_agree u t x y); try assumption; [destruct u; try discriminate Pf; reflexivity|destruct u; try discriminate Pf; reflexivity|]. apply (pi_range u y x); assumption. }
    destruct (Classical_Prop.classic (regular Linear n u x)) as [Rg|Nr].
    + destruct (Req_dec (argument_error u) 0) as [Ae|Ae]; [apply (direct_agree u t x y); assumption|].
      apply (cast_agree u t x y); try assumption; [destruct u; try reflexivity; exfalso; apply Ae; reflexivity|destruct u; try reflexivity; exfalso; apply Ae; reflexivity|].
      destruct (regular_range u t x y Lo Hi It Hx Ey Iy Z0 Rg) as (x' & r & _ & Ir & Hr & _). right. exists r. auto.
    + destruct (dbl_arg w t x Nw It Hx) as (_ & _ & _ & A & _). destruct (trigonometric u) eqn:T.
      * assert ((u = n_cot \/ u = n_csc) /\ x = 0) as [Hu ->].
        { destruct u; try discriminate T; try discriminate Pf; try (exfalso; apply Nr; split; exact I); (split; [tauto|]); destruct (Req_dec x 0) as [E|E]; try exact E; exfalso; apply Nr; (split; [exact E|exact I]). }
        apply agree_nar; [apply cot_csc_zero; assumption|]. apply (ref_inf u t y Ey). apply cot_csc_inf; assumption.
      * assert (~ defined u x) as D.
        { intros D. apply Nr. split; [destruct u; try discriminate T; exact D|]. destruct u; try exact I; try discriminate Lo; try discriminate Hi. intros E. exfalso. unfold n in E. destruct w; try discriminate E. apply Nw. reflexivity. }
        apply agree_nar; [apply (unary_undefined Linear lm u w t x); assumption|]. apply (ref_inf u t y Ey).
        destruct (und_ld lm C u y x T Iy Z0 Fy (arg_rng x x A) D) as [-> |(s & -> & _)]; reflexivity.
  - assert (t = nar n) as ->. { apply (MonoBin.none_nar Linear); [destruct (narrow_bits w Nw) as [S _]; exact (std_range _ S)|assumption|assumption]. }
    apply agree_nar; [apply unary_nar; assumption|]. subst y. apply (ref_inf u _ _ Ey). rewrite ld_nan by assumption. reflexivity.
Qed.
End Narrow.

(** ** The other types: both are computed in long double *)
Section Wide.
Variable lm : libm.
Hypothesis C : c99 lm.
Lemma fixer_same : forall k u (y : flt f80) a v, low_ok u = false -> high_ok u = false -> isf y a -> (a = 0 -> y = B754_zero false) -> arg v a -> Rabs (a - v) <= conversion_error k * Rabs v ->
  unary_fixer u f80 y (unary_ld x86_64 lm u y) = unary_ld x86_64 lm u y.
Proof.
  intros k u y a v Lo Hi Iy Z0 A Cv. assert (unary_fixer u = fix1_none \/ (trigonometric u = false /\ u <> n_arcoth)) as [E|[T Na]]; [destruct u; try discriminate Lo; try discriminate Hi; try (left; reflexivity); right; (split; [reflexivity|discriminate])|rewrite E; reflexivity|].
  destruct (Classical_Prop.classic (defined u v)) as [D|D].
  - assert (regular k 64 u v) as Rg by (split; [destruct u; try discriminate T; exact D|destruct u; try exact I; try discriminate Lo; try discriminate Hi; exfalso; apply Na; reflexivity]).
    destruct (core_ld lm C u k y a v Iy Z0 A Cv Rg) as (x' & _ & _ & (N & _) & S). pose proof (side_plain u a _ Lo Hi S) as S'.
    destruct (acc_range _ _ _ (N S') (eu_rng u) S') as (r & Ir & _ & _). apply (fixer_id u f80 y _ a r); auto.
  - assert (a = 0 \/ win 260 a) as Wa.
    { destruct (arg_rng v a A) as [-> |W]; [left|right; assumption]. pose proof (arg_rel _ _ A) as H. rewrite Rabs_R0, Rmult_0_r, Rminus_0_r in H. apply Rabs_eq_R0. pose proof (Rabs_pos a). lra. }
    destruct (und_ld lm C u y a T Iy Z0 (isf_FF _ _ _ Iy) Wa (defined_arg u v a T A D)) as [-> |(s & -> & H)]; [destruct u; reflexivity|].
    destruct u; try discriminate H; try discriminate Lo; try discriminate Hi; destruct s; try discriminate H; reflexivity.
Qed.

Lemma log_same : forall u w t, low_ok u = false -> high_ok u = false -> is_intn (bits w) t ->
  api_unary Logarithmic lm u w t = (let! y := log_to_ld x86_64 lm w t in log_from_ld x86_64 lm w (unary_ld x86_64 lm u y)).
Proof.
  intros u w t Lo Hi It. cbn [api_unary]. unfold takum_unary, unary_log. destruct (value Logarithmic (bits w) t) as [v|] eqn:Hv.
  - destruct (FixFacts.log_arg lm (bits w) _ t v C (log_ld_to lm w) It Hv) as (y & a & Ey & Iy & A & Z0). rewrite Ey. cbn [bind]. f_equal.
    apply (fixer_same Logarithmic u y a v); try assumption. apply conv_log. assumption.
  - assert (t = nar (bits w)) as -> by (apply (MonoBin.none_nar Logarithmic); [destruct w; cbn; lia|assumption|assumption]).
    rewrite log_to_ld_nar by assumption. cbn [bind]. f_equal. rewrite ld_nan by assumption. destruct u; reflexivity.
Qed.
Lemma lin64_same : forall u t, low_ok u = false -> high_ok u = false -> is_intn 64 t ->
  api_unary Linear lm u W64 t = (let! y := lin_to_ld x86_64 W64 t in lin_from_ld x86_64 W64 (unary_ld x86_64 lm u y)).
Proof.
  intros u t Lo Hi It. cbn [api_unary]. unfold takum_linear_unary, unary_lin. destruct (value Linear 64 t) as [v|] eqn:Hv.
  - destruct (ld_arg t v It Hv) as (y & Ey & Iy & A & Z0). rewrite Ey. cbn [bind]. f_equal.
    apply (fixer_same Linear u y v v); try assumption. apply conv_lin.
  - assert (t = nar 64) as -> by (apply (MonoBin.none_nar Linear); [lia|assumption|assumption]).
    change (nar 64) with (nar (bits W64)). rewrite (LinDec.linear_to_nar _ _ _ (lin_ld_to W64)). cbn [bind]. f_equal. rewrite ld_nan by assumption. destruct u; reflexivity.
Qed.
End Wide.

Lemma same_check : forall n (o e : outcome Z), o = e -> good_val n o -> (let! r := e in let! output := o in deviates output r) = Val 0%Z.
Proof. intros n o e <- (z & -> & _). cbn [bind]. apply deviates_same. Qed.
Theorem function_check : forall lm u utb k w a b, c99 lm -> function_utb lm u = Some utb -> test_case utb w a b -> check_unary_binary_case utb a b k w = Val 0%Z.
Proof.
  intros lm u utb k w a b C H. unfold function_utb in H. destruct (reference_function lm u) as [r|] eqn:Er; [|discriminate H]. apply some_same in H. subst utb. intros [Ia _].
  destruct (reference_is lm u r Er) as (Lo & Hi & Rf). cbn [check_unary_binary_case]. unfold evaluate_takum, int64_takum_to_extended_float, int64_takum_from_extended_float. rewrite !to_s_same by assumption.
  pose proof (unary_total k lm u w a Ia) as G. destruct k.
  - apply (same_check (bits w)); [|exact G]. rewrite (log_same lm C u w a Lo Hi Ia). destruct (log_to_ld x86_64 lm w a) as [y|]; cbn [bind]; [rewrite Rf|]; reflexivity.
  - assert (w = W64 \/ w <> W64) as [-> |Nw] by (destruct w; (left; reflexivity) || (right; discriminate)).
    + apply (same_check 64); [|exact G]. rewrite (lin64_same lm C u a Lo Hi Ia). destruct (lin_to_ld x86_64 W64 a) as [y|]; cbn [bind]; [rewrite Rf|]; reflexivity.
    + destruct (narrow_agree lm C w Nw u a Lo Hi Ia) as (o & e & Eo & Ee & D). unfold lin_reference in Ee. rewrite Eo in *. destruct (lin_to_ld x86_64 w a) as [y|]; [|discriminate Ee]. cbn [bind] in *. rewrite Rf, Ee. cbn [bind].
      destruct G as (o' & Eo' & Io). injection Eo' as <-. apply (deviates_near (bits w)); try assumption; [destruct w; cbn; tauto|].
      assert (good_val (bits w) (lin_from_ld x86_64 w (unary_ld x86_64 lm u y))) as (e' & Ee' & Ie) by (apply lin_from_total with (F := f80); apply lin_ld_from). congruence.
Qed.
Theorem function_program : forall lm u utb, c99 lm -> function_utb lm u = Some utb -> passes utb /\ forall result, test_main utb result <-> result = 0%Z.
Proof.
  intros lm u utb C H. apply program; [|intros k w a b; apply (function_check lm u); assumption].
  unfold function_utb in H. destruct (reference_function lm u) as [r|]; [|discriminate H]. apply some_same in H. subst utb. exact I.
Qed.
Theorem function_programs : forall lm u, function_utb lm u <> None <->
  ~ In u (n_exp :: n_exp_minus_1 :: n_2_raised :: n_2_raised_minus_1 :: n_10_raised :: n_10_raised_minus_1 :: n_sinh :: n_cosh :: n_sech :: n_csch :: nil).
Proof.
  intros lm u. destruct u; unfold function_utb; cbn [reference_function]; (split; [intros H K|intros H K]); cbn [In] in *;
    first [discriminate K|apply H; reflexivity|apply H; tauto|repeat (destruct K as [K|K]; [discriminate K|]); exact K].
Qed.
