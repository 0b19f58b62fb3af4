(** Odd and even functions: definitions and proofs. *)
From Coq Require Import ZArith Reals Bool Lia Lra.
From Flocq Require Import Core.Core IEEE754.BinarySingleNaN.
From Verif Require Import CModel FloatModel Libm LibmSpec Wrappers Conversion Codec Spec FloatSpec CodeFacts SpecFacts ValueFacts RoundFacts WidthFacts WidthApi WidthProps FloatFacts Machine LibmIdeal WrapApi WrapSpec LinApi LinProps LogConv FloatSym LogAlgebra WrapAcc3 WrapRefute.
Local Open Scope R_scope.

(** the odd and the even functions of the mathematical library *)
Definition odd1 (g : fun1) : bool :=
  match g with Fsin | Ftan | Fasin | Fatan | Fsinh | Ftanh | Fasinh | Fatanh => true | _ => false end.
Definition even1 (g : fun1) : bool := match g with Fcos | Fcosh => true | _ => false end.

(** A library that treats x and -x alike.  The sign of a result zero, and of an
    infinite tangent, is left free. *)
Record symmetric (lm : libm) : Prop := {
  sym_odd : forall g F (x : flt F), odd1 g = true ->
    lib1 lm g F (fneg x) = fneg (lib1 lm g F x) \/
    (exists s s', lib1 lm g F (fneg x) = B754_zero s /\ lib1 lm g F x = B754_zero s') \/
    (g = Ftan /\ exists s s', lib1 lm g F (fneg x) = B754_infinity s /\ lib1 lm g F x = B754_infinity s');
  sym_even : forall g F (x : flt F), even1 g = true -> lib1 lm g F (fneg x) = lib1 lm g F x
}.

(** takumN_<name>: the odd and the even ones *)
Definition odd_name (u : unary_name) : bool :=
  match u with
  | n_sin | n_tan | n_cot | n_csc | n_sin_pi_times | n_tan_pi_times | n_cot_pi_times | n_csc_pi_times
  | n_arcsin | n_arcsin_over_pi | n_arctan | n_arctan_over_pi | n_arccsc | n_arccsc_over_pi
  | n_sinh | n_tanh | n_coth | n_csch | n_arsinh | n_artanh | n_arcoth | n_arcsch => true
  | _ => false
  end.
Definition even_name (u : unary_name) : bool :=
  match u with n_cos | n_sec | n_cos_pi_times | n_sec_pi_times | n_cosh | n_sech => true | _ => false end.

(** ** The ideal library is symmetric *)
Lemma of_real_opp : forall F r, of_real F (- r) = fneg (of_real F r) \/ (of_real F (- r) = B754_zero false /\ of_real F r = B754_zero false).
Proof.
  intros F r. destruct (Req_dec r 0) as [->|N].
  - right. rewrite Ropp_0. assert (of_real F 0 = B754_zero false); [|auto]. destruct (of_real_spec F 0) as [H _].
    rewrite RF_0, Rabs_R0 in H. destruct (H (bpow_gt_0 _ _)) as [[Hf Hv] Hs]. rewrite Rcompare_Eq, Rlt_bool_false in Hs by lra.
    destruct (of_real F 0) as [s|s| |s m e He]; try discriminate; simpl in *; [congruence|]. exfalso.
    destruct s; pose proof (F2R_lt_0 radix2 (Float radix2 (Zneg m) e) ltac:(reflexivity)); pose proof (F2R_gt_0 radix2 (Float radix2 (Zpos m) e) ltac:(reflexivity)); simpl in *; lra.
  - left. destruct (of_real_spec F r) as [H1 H2]. destruct (of_real_spec F (- r)) as [K1 K2]. rewrite RF_opp, Rabs_Ropp in K1, K2.
    destruct (Rlt_le_dec (Rabs (RF F r)) (bpow radix2 (femax F))) as [L|L].
    + destruct (H1 L) as [[Hf Hv] Hs]. destruct (K1 L) as [[Kf Kv] Ks].
      assert (Bsign (of_real F (- r)) = negb (Bsign (of_real F r))) as Es.
      { rewrite Hs, Ks. destruct (Rcompare_spec (RF F r) 0), (Rcompare_spec (- RF F r) 0); try lra; try reflexivity.
        destruct (Rlt_bool_spec (- r) 0), (Rlt_bool_spec r 0); try lra; reflexivity. }
      apply B2R_Bsign_inj; [assumption| | |].
      * unfold fneg. rewrite is_finite_Bopp. assumption.
      * unfold fneg. rewrite B2R_Bopp. lra.
      * unfold fneg. rewrite Bsign_Bopp by (destruct (of_real F r); try discriminate; reflexivity). exact Es.
    + rewrite (H2 L), (K2 L). simpl. f_equal. assert (RF F r <> 0) as NR by (intros E; rewrite E, Rabs_R0 in L; pose proof (bpow_gt_0 radix2 (femax F)); lra).
      destruct (Rlt_bool_spec (- RF F r) 0), (Rlt_bool_spec (RF F r) 0); try lra; reflexivity.
Qed.
Lemma fneg_finite : forall F (x : flt F), is_finite x = true -> is_finite (fneg x) = true /\ B2R (fneg x) = - B2R x.
Proof. intros F x H. unfold fneg. rewrite is_finite_Bopp, B2R_Bopp. auto. Qed.

Lemma sinh_opp : forall x, sinh (- x) = - sinh x.
Proof. intros x. unfold sinh. rewrite Ropp_involutive. field. Qed.
Lemma real1_odd : forall g x, odd1 g = true -> domb g (- x) = domb g x /\ poleb g (- x) = poleb g x /\ (domb g x = true -> real1 g (- x) = - real1 g x).
Proof.
  intros g x H. destruct g; try discriminate H; cbn [domb poleb real1].
  - repeat split. intros _. apply sin_neg.
  - rewrite cos_neg. repeat split. intros _. apply tan_neg.
  - split; [|split; [reflexivity|intros; apply asin_opp]].
    repeat match goal with |- context [Rle_bool ?a ?b] => destruct (Rle_bool_spec a b) end; simpl; try reflexivity; exfalso; lra.
  - repeat split. intros _. apply atan_opp.
  - repeat split. intros _. unfold sinh. rewrite Ropp_involutive. field.
  - repeat split. intros _. unfold tanh, sinh, cosh. rewrite Ropp_involutive. pose proof (exp_pos x). pose proof (exp_pos (- x)). field. lra.
  - repeat split. intros _. rewrite <- (sinh_arcsinh x) at 1. rewrite <- sinh_opp. apply arcsinh_sinh.
  - split; [|split].
    + repeat match goal with |- context [Rlt_bool ?a ?b] => destruct (Rlt_bool_spec a b) end; simpl; try reflexivity; exfalso; lra.
    + repeat match goal with |- context [Req_bool ?a ?b] => destruct (Req_bool_spec a b) end; simpl; try reflexivity; exfalso; lra.
    + intros D. apply andb_prop in D as [D1 D2]. destruct (Rlt_bool_spec (-1) x), (Rlt_bool_spec x 1); try discriminate.
      replace ((1 + - x) / (1 - - x)) with (/ ((1 + x) / (1 - x))) by (field; lra). rewrite ln_Rinv by (apply Rdiv_lt_0_compat; lra). field.
Qed.

Theorem ideal_symmetric : symmetric ideal.
Proof.
  split.
  - intros g F x Hg. cbn [lib1 ideal]. destruct (is_finite x) eqn:Fx.
    + destruct (fneg_finite F x Fx) as [Fn Vn]. rewrite !ideal1_finite by assumption. rewrite Vn.
      destruct (real1_odd g (B2R x) Hg) as (Ed & Ep & Er). rewrite Ed, Ep. destruct (domb g (B2R x)) eqn:D.
      * rewrite (Er eq_refl). destruct (of_real_opp F (real1 g (B2R x))) as [->|[-> ->]]; [left; reflexivity|right; left; exists false, false; auto].
      * destruct (poleb g (B2R x)) eqn:P; [|left; reflexivity].
        destruct g; try discriminate Hg; try discriminate P; simpl in P.
        -- right. right. split; [reflexivity|]. exists true, true. auto.
        -- left. simpl. f_equal. destruct (Req_bool_spec (B2R x) (-1)), (Req_bool_spec (B2R x) 1); try discriminate P;
             destruct (Rlt_bool_spec (- B2R x) 0), (Rlt_bool_spec (B2R x) 0); try reflexivity; exfalso; lra.
    + destruct x as [s|s| |s m e H]; try discriminate Fx; [|left; destruct g; reflexivity].
      destruct g; try discriminate Hg; cbn [ideal1 fneg Bopp]; try (left; reflexivity).
      * replace (if negb s then - (PI / 2) else PI / 2) with (- (if s then - (PI / 2) else PI / 2)) by (destruct s; simpl; lra).
        destruct (of_real_opp F (if s then - (PI / 2) else PI / 2)) as [->|[-> ->]]; [left; reflexivity|right; left; exists false, false; auto].
      * left. pose proof (fint_neg F 1 ltac:(lia)) as E. change (- (1))%Z with (-1)%Z in E. destruct s; cbn [negb]; rewrite E; [rewrite fneg_neg|]; reflexivity.
  - intros g F x Hg. cbn [lib1 ideal]. destruct (is_finite x) eqn:Fx.
    + destruct (fneg_finite F x Fx) as [Fn Vn]. rewrite !ideal1_finite by assumption. rewrite Vn.
      destruct g; try discriminate Hg; cbn [domb real1]; [rewrite cos_neg; reflexivity|]. unfold cosh. rewrite Ropp_involutive, (Rplus_comm (exp (- _))). reflexivity.
    + destruct x as [s|s| |s m e H]; try discriminate Fx; destruct g; try discriminate Hg; reflexivity.
Qed.

