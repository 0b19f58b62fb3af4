(** Proofs about the test programs for the hypotenuse and the angle of a point. *)
From Coq Require Import ZArith Reals Bool Lia Lra List.
From Flocq Require Import Core.Core IEEE754.BinarySingleNaN.
From Verif Require Import CModel FloatModel Libm LibmSpec Arith Codec Spec FloatSpec CodeFacts SpecFacts ValueFacts RoundFacts
  WidthFacts WidthProps FloatFacts EncodeFacts Machine Conversion Wrappers LinApi LinFacts LinProps LogApi LogProps LogConv NearFacts NearCode WrapSpec WrapSpec2 LinOps LinArith WrapApi WrapTotal WrapNar
  RealBounds RealFacts FloatAcc FixFacts WrapAcc WrapAcc2 WrapAcc3 WrapMain WrapDom WrapBin Faithful
  Agree TestHarness HarnessSpec HarnessProofs HarnessResults TestBlocksSpec TestBlocks TestBlocksProofs TestPrograms TestProgramsProofs TestProgramsMisc TestFunctions TestFunctionsProofs TestBinary.
From Verif Require MonoBin WrapExact.
Local Open Scope R_scope.

Lemma reference2_is : forall lm b r, reference_function2 lm b = Some r ->
  b <> n_multiplication /\ b <> n_division /\ b <> n_power /\ r = snd (fst (impl_of lm b)) /\ (b = n_hypotenuse \/ b <> n_hypotenuse /\ snd (impl_of lm b) = fix2_none).
Proof.
  intros lm b r H. destruct b; cbn [reference_function2] in H; try (match type of H with None = _ => discriminate H end); apply some_same in H; subst r;
    (split; [discriminate|]; split; [discriminate|]; split; [discriminate|]; split; [reflexivity|]); try (left; reflexivity); right; (split; [discriminate|reflexivity]).
Qed.

Section Two.
Variable lm : libm.
Hypothesis C : c99 lm.
Lemma ext_opnd : forall k w t, is_intn (bits w) t -> exists y, int64_takum_to_extended_float lm k w t = Val y /\ opnd k (value k (bits w) t) f80 y.
Proof.
  intros k w t It. unfold int64_takum_to_extended_float. rewrite !to_s_same by assumption. destruct k; [apply opnd_log; assumption|].
  destruct (ld_operand w t It) as (y & Ey & H). exists y. split; [assumption|]. destruct (value Linear (bits w) t) as [x|]; [|assumption].
  destruct H as (Iy & (_ & _ & Hx) & _ & Z0). apply opnd_exact. split; [assumption|]. split; [|assumption]. apply arg_self. destruct (Req_dec x 0) as [E|E]; [left; assumption|right]. specialize (Hx E).
  split; (eapply Rle_trans; [|apply Hx]) || (eapply Rle_trans; [apply Hx|]); apply bpow_le; lia.
Qed.
Lemma opnd_inf : forall k v (y : flt f80), opnd k v f80 y -> fisinf y = false.
Proof. intros k [x|] y H; [destruct H as (a & I & _); apply (fisinf_isf _ _ I)|rewrite H; reflexivity]. Qed.
Lemma ref_nan : forall b r k v v' (fa fb : flt f80), reference_function2 lm b = Some r -> opnd k v f80 fa -> opnd k v' f80 fb -> v = None \/ v' = None -> r fa fb = B754_nan.
Proof.
  intros b r k v v' fa fb Hr Oa Ob Hn.
  assert (lib2 lm Fhypot f80 fa fb = B754_nan) as H.
  { destruct Hn as [-> | ->]; [rewrite Oa; apply (c_hypot_nan lm C), (opnd_inf _ _ _ Ob)|rewrite Ob; apply (c_hypot_nan lm C), (opnd_inf _ _ _ Oa)]. }
  assert (lib2 lm Fatan2 f80 fa fb = B754_nan) as A by (destruct Hn as [-> | ->]; [rewrite Oa|rewrite Ob]; apply (c_atan2_nan lm C)).
  destruct b; cbn [reference_function2] in Hr; try (match type of Hr with None = _ => discriminate Hr end); apply some_same in Hr; subst r; try assumption. cbv beta. rewrite A. reflexivity.
Qed.
Lemma fix_ref : forall b r k v v' (fa fb : flt f80), reference_function2 lm b = Some r -> opnd k v f80 fa -> opnd k v' f80 fb -> snd (impl_of lm b) f80 fa fb (r fa fb) = r fa fb.
Proof.
  intros b r k v v' fa fb Hr Oa Ob. destruct (reference2_is lm b r Hr) as (_ & _ & _ & _ & [-> |[_ ->]]); [|reflexivity].
  assert (v = None \/ v' = None \/ exists x y, v = Some x /\ v' = Some y) as [E|[E|(x & y & -> & ->)]] by (destruct v as [x|]; [destruct v' as [y|]; [right; right; exists x, y; auto|auto]|auto]).
  - rewrite (ref_nan n_hypotenuse r k v v'); auto.
  - rewrite (ref_nan n_hypotenuse r k v v'); auto.
  - cbn [reference_function2] in Hr. apply some_same in Hr. subst r. destruct Oa as (a & Ia & Aa & _ & _), Ob as (c & Ic & Ac & _ & _). destruct Ia as [Fx Vx], Ic as [Fy Vy].
    pose proof (c_hypot lm C f80 fa fb Fx Fy) as K. rewrite Vx, Vy in K. apply close_near in K; [|apply w80|lia].
    pose proof (hypot_win a c (arg_win _ _ Aa) (arg_win _ _ Ac)) as Wr. destruct (near_acc _ _ _ _ _ K) as (q & Iq & _); [destruct Wr as [Wr|Wr]; [left; assumption|right; apply (win_weaken 261); [assumption|lia]]|].
    exact (over_id f80 fa fb _ q Iq).
Qed.

(** computed in long double: the same *)
Lemma two_same : forall b r k w s t, reference_function2 lm b = Some r -> k = Logarithmic \/ w = W64 -> is_intn (bits w) s -> is_intn (bits w) t ->
  api_binary k lm b w s t = evaluate_takum_takum lm r k w s t.
Proof.
  intros b r k w s t Hr Hk Is It. destruct (reference2_is lm b r Hr) as (N1 & N2 & N3 & Er & _). rewrite api_sel2 by assumption. unfold evaluate_takum_takum.
  destruct (ext_opnd k w s Is) as (fa & Ea & Oa), (ext_opnd k w t It) as (fb & Eb & Ob). rewrite Ea, Eb. cbn [bind].
  pose proof (fix_ref b r k _ _ fa fb Hr Oa Ob) as Fx. unfold int64_takum_to_extended_float in Ea, Eb. rewrite to_s_same in Ea, Eb by assumption. unfold int64_takum_from_extended_float. destruct k; cbn [sel2].
  - unfold binary_log. rewrite Ea, Eb. cbn [bind]. rewrite <- Er. f_equal. exact Fx.
  - destruct Hk as [Hk|Hk]; [discriminate|subst w]. unfold binary_lin. rewrite Ea, Eb. cbn [bind]. rewrite <- Er. f_equal. exact Fx.
Qed.

(** computed in double: both are faithful roundings *)
Lemma two_agree : forall b r w s t, reference_function2 lm b = Some r -> w <> W64 -> is_intn (bits w) s -> is_intn (bits w) t ->
  exists o e, api_binary Linear lm b w s t = Val o /\ evaluate_takum_takum lm r Linear w s t = Val e /\ (Z.abs (o - e) <= 1)%Z.
Proof.
  intros b r w s t Hr Nw Is It. destruct (reference2_is lm b r Hr) as (N1 & N2 & N3 & Er & _). destruct (narrow_bits w Nw) as [Sw Lw]. assert (8 <= bits w <= 64)%Z as Hn by (apply std_range; assumption).
  destruct (ext_opnd Linear w s Is) as (fa & Ea & Oa), (ext_opnd Linear w t It) as (fb & Eb & Ob).
  assert (value Linear (bits w) s = None \/ value Linear (bits w) t = None -> exists o e, api_binary Linear lm b w s t = Val o /\ evaluate_takum_takum lm r Linear w s t = Val e /\ (Z.abs (o - e) <= 1)%Z) as Kn.
  { intros H. exists (nar (bits w)), (nar (bits w)). split; [|split; [|rewrite Z.sub_diag; cbn; lia]].
    - apply binary_nar; try assumption. destruct H as [H|H]; [left|right]; eapply MonoBin.none_nar; eassumption.
    - unfold evaluate_takum_takum. rewrite Ea, Eb. cbn [bind]. unfold int64_takum_from_extended_float. rewrite (ref_nan b r Linear _ _ fa fb Hr Oa Ob H). apply (lin_from_nan _ _ _ (lin_ld_from w)). }
  destruct (value Linear (bits w) s) as [x|] eqn:Hx; [|auto]. destruct (value Linear (bits w) t) as [y|] eqn:Hy; [|auto].
  pose proof (fix_ref b r Linear _ _ fa fb Hr Oa Ob) as Fx.
  destruct Oa as (a & Ia & Aa & Sa & Za), Ob as (c & Ic & Ac & Sc & Zc). cbn [slack] in Sa, Sc. apply WrapExact.no_dist in Sa; [|lra]. apply WrapExact.no_dist in Sc; [|lra]. subst a c.
  destruct (bin_good lm C b f80 r fa fb x y w80 N1 N2 N3) as (v & Hv & G); try assumption; [rewrite Er; constructor|apply (arg_win _ _ Aa)|apply (arg_win _ _ Ac)|].
  rewrite Fx in G. destruct (Faithful.binary_faithful lm C b w s t x y v Nw N1 N2 Is It Hx Hy Hv) as (o & Eo & Fo).
  destruct (good_from Linear (bits w) (fe f80) f80 v _ (lin_from_ld x86_64 w) (fe_pos f80) ltac:(lia) (fun z Fz => lin_from_near _ _ _ z (lin_ld_from w) ltac:(discriminate) Fz) G) as (e & z & Ee & Bz & Rz).
  exists o, e. split; [assumption|]. split; [unfold evaluate_takum_takum; rewrite Ea, Eb; exact Ee|]. apply (faithful_unit Linear (bits w) v); [assumption|assumption|].
  apply (near_faith Linear (bits w) (fe f80) z); try assumption. split; [apply fe_pos|]. apply bpow_le. lia.
Qed.
End Two.

Theorem function2_check : forall lm b utb k w s t, c99 lm -> function2_utb lm b = Some utb -> test_case utb w s t -> check_unary_binary_case utb s t k w = Val 0%Z.
Proof.
  intros lm b utb k w s t C H. unfold function2_utb in H. destruct (reference_function2 lm b) as [r|] eqn:Er; [|discriminate H]. apply some_same in H. subst utb. intros [Is It].
  cbn [check_unary_binary_case]. rewrite !to_s_same by assumption. pose proof (binary_total k lm b w s t Is It) as G.
  assert (k = Logarithmic \/ w = W64 \/ (k = Linear /\ w <> W64)) as [Hk|[Hk|[-> Nw]]] by (destruct k; [auto|]; destruct w; auto; right; right; (split; [reflexivity|discriminate])).
  - apply (same_check (bits w)); [|exact G]. apply two_same; auto.
  - apply (same_check (bits w)); [|exact G]. apply two_same; auto.
  - destruct (two_agree lm C b r w s t Er Nw Is It) as (o & e & Eo & Ee & D). rewrite Ee. cbn [bind]. rewrite Eo in *. cbn [bind]. destruct G as (o' & Eo' & Io). injection Eo' as <-.
    apply (deviates_near (bits w)); try assumption; [destruct w; cbn; tauto|]. unfold evaluate_takum_takum in Ee. unfold int64_takum_from_extended_float in Ee.
    destruct (int64_takum_to_extended_float lm Linear w s) as [x|]; [|discriminate Ee]. destruct (int64_takum_to_extended_float lm Linear w t) as [y|]; [|discriminate Ee]. cbn [bind] in Ee.
    assert (good_val (bits w) (lin_from_ld x86_64 w (r x y))) as (e' & Ee' & Ie) by (apply lin_from_total with (F := f80); apply lin_ld_from). congruence.
Qed.
Theorem function2_program : forall lm b utb, c99 lm -> function2_utb lm b = Some utb -> passes utb /\ forall result, test_main utb result <-> result = 0%Z.
Proof.
  intros lm b utb C H. apply program; [|intros k w s t; apply (function2_check lm b); assumption].
  unfold function2_utb in H. destruct (reference_function2 lm b) as [r|]; [|discriminate H]. apply some_same in H. subst utb. exact I.
Qed.

Theorem two_blocks : forall u v, (forall result, test_main u result <-> result = 0%Z) -> (forall result, test_main v result <-> result = 0%Z) ->
  forall result, test_main2 u v result <-> result = 0%Z.
Proof.
  intros u v Hu Hv result. split.
  - intros (r & s & R & S & ->). apply Hu in R. apply Hv in S. subst. reflexivity.
  - intros ->. exists 0%Z, 0%Z. split; [apply Hu; reflexivity|]. split; [apply Hv; reflexivity|reflexivity].
Qed.
Theorem function_programs2 : forall lm u v utb utb', c99 lm -> function_utb lm u = Some utb -> function_utb lm v = Some utb' -> forall result, test_main2 utb utb' result <-> result = 0%Z.
Proof. intros lm u v utb utb' C H H'. apply two_blocks; [apply (function_program lm u utb C H)|apply (function_program lm v utb' C H')]. Qed.
Theorem arctan2_program : forall lm b c utb utb', c99 lm -> function2_utb lm b = Some utb -> function2_utb lm c = Some utb' -> forall result, test_main2 utb utb' result <-> result = 0%Z.
Proof. intros lm u v utb utb' C H H'. apply two_blocks; [apply (function2_program lm u utb C H)|apply (function2_program lm v utb' C H')]. Qed.
