(** Facts about the numbers and the operators of the calculator. *)
From Coq Require Import ZArith List Bool Ascii String Reals Lia Lra.
From Flocq Require Import Core.Core IEEE754.BinarySingleNaN.
From Verif Require Import CModel FloatModel Libm LibmSpec Spec FloatSpec WidthConv WidthApi LogApi LinApi Conversion Arith Wrappers WrapApi CodeFacts SpecFacts ValueFacts WidthFacts WidthProps FloatFacts LinFacts LinProps LogConv WrapTotal MiscProps Calculator CalcSpec.
Import ListNotations.
Local Open Scope Z_scope.

Section Numbers.
Variable lm : libm.

Lemma bits_std : forall T, std_width (bits_of T).
Proof. destruct T; unfold std_width; cbn; tauto. Qed.
Lemma bits_range : forall T, 8 <= bits_of T <= 64.
Proof. intros T. apply std_range, bits_std. Qed.

(** a struct whose fields all hold one number *)
Definition consistent (nb : number) : Prop :=
  forall T, is_intn (bits_of T) (takum_value T nb) /\
    exists f, cast_function lm (type_ nb) T f /\ f (takum_value (type_ nb) nb) = Val (takum_value T nb).

(** filling in the fields *)
Lemma conv_step : forall n m f t (A : Type) (k : Z -> outcome A), takum_function lm n m f -> is_intn n t ->
  exists r, f t = Val r /\ is_intn m r /\ bind (f t) k = k r.
Proof. intros n m f t A k H It. destruct (takum_function_total lm n m f t H It) as (r & E & I). exists r. rewrite E. auto. Qed.

Ltac api_conv :=
  first [ apply (tf_widening lm Logarithmic); constructor | apply (tf_widening lm Linear); constructor
        | apply (tf_narrowing lm Logarithmic); constructor | apply (tf_narrowing lm Linear); constructor
        | apply tf_log_to_linear; constructor | apply tf_linear_to_log; constructor ].
Ltac cast_conv :=
  first [ apply cast_same | apply cast_wider; [reflexivity|constructor] | apply cast_narrower; [reflexivity|constructor]
        | apply cast_to_linear; [reflexivity|reflexivity|constructor] | apply cast_to_log; [reflexivity|reflexivity|constructor] ].
Ltac fill It :=
  repeat match goal with
  | |- exists nb, bind (?f ?t) ?k = Val nb /\ _ =>
      let r := fresh "r" in let E := fresh "E" in let I := fresh "I" in let Q := fresh "Q" in
      destruct (conv_step _ _ f t _ k ltac:(api_conv) It) as (r & E & I & Q); rewrite Q; cbv beta; clear Q
  end;
  eexists; split; [reflexivity|]; split; [|reflexivity];
  intros T'; destruct T'; split;
    try assumption; eexists; (split; [cast_conv|first [eassumption|reflexivity]]).

(** the part of number_from_TYPE after the integer is known *)
Definition filled (T : takum_type) (t i : Z) (o : outcome number) : Prop :=
  exists nb, o = Val nb /\ consistent nb /\ (type_ nb, takum_value T nb, integer_value nb) = (T, t, i).

Lemma literal_total : forall T x i, exists t, filled T t i (number_from_literal lm T x i) /\
  is_intn (bits_of T) t /\ from_extended_float lm T x = Val t.
Proof.
  intros T x i.
  assert (from_float lm (kind_of T) (bits_of T) f80 (from_extended_float lm T)) as HF.
  { destruct T; first [apply from_float_log; constructor|apply from_float_lin; constructor]. }
  destruct (from_total lm _ _ _ _ x HF) as (t & E & I). exists t. split; [|split; assumption].
  unfold filled, number_from_literal. destruct T; cbn [from_extended_float functions] in E; cbn [kind_of bits_of width_of bits] in I; rewrite E; cbn [bind]; fill I.
Qed.

(** the integer of a logarithmic takum *)
Definition log_int (n t : Z) : Z :=
  if t =? 0 then 0 else if t =? ONE n then 1 else if t =? - ONE n then -1 else INT64_MAX.
Lemma value_minus_one : forall k n, std_width n -> value k n (- 2 ^ (n - 2)) = Some (-1)%R /\ is_intn n (- 2 ^ (n - 2)).
Proof.
  intros k n Hn. destruct (value_one_k k n Hn) as [V I]. pose proof (std_range n Hn).
  assert (2 ^ (n - 2) <> nar n) as NN.
  { unfold nar. assert (0 < 2 ^ (n - 2)) by (apply Z.pow_pos_nonneg; lia). assert (0 < 2 ^ (n - 1)) by (apply Z.pow_pos_nonneg; lia). lia. }
  destruct (negation_negates k n _ Hn I NN) as (I' & _ & x & Vx & Vn). rewrite V in Vx. injection Vx as <-.
  split; [|assumption]. rewrite Vn. reflexivity.
Qed.
Lemma log_int_known : forall n t, std_width n -> is_intn n t ->
  known_integer Logarithmic n t (if log_int n t =? 2 ^ 63 - 1 then None else Some (log_int n t)).
Proof.
  intros n t Hn It. destruct (value_one_k Logarithmic n Hn) as [V1 I1]. destruct (value_minus_one Logarithmic n Hn) as [V2 I2].
  unfold log_int, ONE. pose proof (value_0 n Logarithmic) as V0.
  destruct (Z.eqb_spec t 0) as [->|N0]; [change (0 =? 2 ^ 63 - 1) with false; split; [cbn; lia|exact V0]|].
  destruct (Z.eqb_spec t (2 ^ (n - 2))) as [->|N1]; [change (1 =? 2 ^ 63 - 1) with false; split; [cbn; lia|exact V1]|].
  destruct (Z.eqb_spec t (- 2 ^ (n - 2))) as [->|N2]; [change (-1 =? 2 ^ 63 - 1) with false; split; [cbn; lia|exact V2]|].
  unfold INT64_MAX. rewrite Z.eqb_refl. intros z Hz V. cbn in Hz.
  assert (z = -1 \/ z = 0 \/ z = 1) as [->|[->| ->]] by lia.
  - apply N2. apply (value_injective Logarithmic n); [assumption|assumption|assumption|]. rewrite V2. exact V.
  - apply N0. apply (value_injective Logarithmic n); [assumption|assumption|split; [|]|]; [pose proof (std_range n Hn); enough (0 < 2 ^ (n - 1)) by lia; apply Z.pow_pos_nonneg; lia|apply Z.pow_pos_nonneg; pose proof (std_range n Hn); lia|].
    rewrite V0. exact V.
  - apply N1. apply (value_injective Logarithmic n); [assumption|assumption|assumption|]. rewrite V1. exact V.
Qed.

(** truncation stays in the format *)
Lemma trunc_fint : forall F (x : flt F) a, isf x a -> isf (fint F (Ztrunc a)) (IZR (Ztrunc a)).
Proof.
  intros F x a [Fx <-]. pose proof (Bnearbyint_correct (fprec F) (femax F) _ mode_ZR x) as (H1 & H2 & _).
  assert (B2R (Bnearbyint mode_ZR x) = IZR (Ztrunc (B2R x))) as E.
  { rewrite H1. unfold round, F2R, scaled_mantissa, cexp, FIX_exp. simpl. rewrite !Rmult_1_r. reflexivity. }
  apply isf_fint_gen; rewrite <- E; [apply generic_format_B2R|apply abs_B2R_lt_emax].
Qed.
Lemma f2int_cases : forall F (x : flt F) a, isf x a ->
  f2int 64 x = if fits_s 64 (Ztrunc a) then Val (Ztrunc a) else UB.
Proof.
  intros F x a Hx. destruct (fits_s 64 (Ztrunc a)) eqn:Hf.
  - unfold f2int. destruct Hx as [Fx Vx]. rewrite Fx.
    assert (Btrunc x = Ztrunc a) as ->.
    { apply eq_IZR. rewrite (Btrunc_correct (fprec F) (femax F) _ x), Vx. unfold round, F2R, scaled_mantissa, cexp, FIX_exp. simpl. rewrite !Rmult_1_r. reflexivity. }
    unfold guard. rewrite Hf. reflexivity.
  - unfold f2int. destruct Hx as [Fx Vx]. rewrite Fx.
    assert (Btrunc x = Ztrunc a) as ->.
    { apply eq_IZR. rewrite (Btrunc_correct (fprec F) (femax F) _ x), Vx. unfold round, F2R, scaled_mantissa, cexp, FIX_exp. simpl. rewrite !Rmult_1_r. reflexivity. }
    unfold guard. rewrite Hf. reflexivity.
Qed.
Lemma fits_trunc : forall x, fits_s 64 (Ztrunc x) = true <-> (- IZR (2 ^ 63) - 1 < x < IZR (2 ^ 63))%R.
Proof.
  intros x. unfold fits_s. change (64 - 1) with 63. rewrite andb_true_iff, Z.leb_le, Z.ltb_lt. split.
  - intros [H1 H2]. destruct (Rle_or_lt 0 x) as [P|N].
    + rewrite Ztrunc_floor in * by assumption. split; [pose proof (IZR_le 0 (2 ^ 63) ltac:(lia)); lra|].
      apply Rlt_le_trans with (IZR (Zfloor x) + 1)%R; [apply Zfloor_ub|]. rewrite <- plus_IZR. apply IZR_le. lia.
    + rewrite Ztrunc_ceil in * by lra. split; [|pose proof (IZR_le 0 (2 ^ 63) ltac:(lia)); lra].
      pose proof (Zceil_ub x). assert (Zceil x - 1 >= - 2 ^ 63 - 1)%Z by lia.
      assert (IZR (Zceil x) < x + 1)%R. { pose proof (Zceil_lb x). lra. }
      pose proof (IZR_le (- 2 ^ 63) (Zceil x) ltac:(lia)) as H4. rewrite opp_IZR in H4. lra.
  - intros [H1 H2]. destruct (Rle_or_lt 0 x) as [P|N].
    + rewrite Ztrunc_floor by assumption. split.
      * apply Z.le_trans with 0; [lia|]. apply Zfloor_lub. exact P.
      * apply lt_IZR. apply Rle_lt_trans with x; [apply Zfloor_lb|assumption].
    + rewrite Ztrunc_ceil by lra. split.
      * assert (- 2 ^ 63 - 1 < Zceil x)%Z; [|lia]. apply lt_IZR. rewrite minus_IZR, opp_IZR. apply Rlt_le_trans with x; [lra|apply Zceil_ub].
      * apply Z.le_lt_trans with 0; [|lia]. apply Zceil_glb. lra.
Qed.
Lemma lin_int_known : forall n t x, value Linear n t = Some x -> fits_s 64 (Ztrunc x) = true ->
  let i := if Req_bool x (IZR (Ztrunc x)) then Ztrunc x else INT64_MAX in
  known_integer Linear n t (if i =? 2 ^ 63 - 1 then None else Some i).
Proof.
  intros n t x V F i. unfold fits_s in F. change (64 - 1) with 63 in F. apply andb_true_iff in F. destruct F as [F1 F2]. apply Z.leb_le in F1. apply Z.ltb_lt in F2.
  subst i. destruct (Req_bool_spec x (IZR (Ztrunc x))) as [Q|Q].
  - destruct (Z.eqb_spec (Ztrunc x) (2 ^ 63 - 1)) as [M|M].
    + intros z Hz Vz. cbn [recognised] in Hz. rewrite V in Vz. injection Vz as Vz. rewrite M in Q. rewrite Q in Vz. apply eq_IZR in Vz. lia.
    + split; [cbn [recognised]; lia|]. rewrite V. f_equal. exact Q.
  - unfold INT64_MAX. rewrite Z.eqb_refl. intros z Hz Vz. rewrite V in Vz. injection Vz as Vz. apply Q. rewrite Vz, Ztrunc_IZR. reflexivity.
Qed.

(** number_from_TYPE *)
Lemma number_from_log : forall T t, kind_of T = Logarithmic -> is_intn (bits_of T) t ->
  filled T t (log_int (bits_of T) t) (number_from lm T t).
Proof.
  intros T t K It. unfold filled. destruct T; try discriminate K; cbn [bits_of width_of bits] in It; cbn [number_from];
  unfold number_from_takum8, number_from_takum16, number_from_takum32, number_from_takum64; fill It.
Qed.
Lemma number_from_lin_ok : forall T t x, kind_of T = Linear -> is_intn (bits_of T) t -> value Linear (bits_of T) t = Some x ->
  fits_s 64 (Ztrunc x) = true ->
  filled T t (if Req_bool x (IZR (Ztrunc x)) then Ztrunc x else INT64_MAX) (number_from lm T t).
Proof.
  intros T t x K It V F. unfold filled.
  destruct T; try discriminate K; cbn [bits_of width_of bits] in It, V; cbn [number_from].
  all: unfold number_from_takum_linear8, number_from_takum_linear16, number_from_takum_linear32, number_from_takum_linear64.
  - destruct (lin_to_exact 8 f64 _ t lin8_to_float64 ltac:(right; split; [reflexivity|discriminate]) It) as (y & E & H).
    rewrite V in H. destruct H as (F1 & V1 & _). rewrite E. cbn [bind]. rewrite (f2int_cases f64 y x (conj F1 V1)), F. cbn [bind].
    rewrite (feq_isf y _ _ _ (conj F1 V1) (trunc_fint f64 y x (conj F1 V1))). fill It.
  - destruct (lin_to_exact 16 f64 _ t lin16_to_float64 ltac:(right; split; [reflexivity|discriminate]) It) as (y & E & H).
    rewrite V in H. destruct H as (F1 & V1 & _). rewrite E. cbn [bind]. rewrite (f2int_cases f64 y x (conj F1 V1)), F. cbn [bind].
    rewrite (feq_isf y _ _ _ (conj F1 V1) (trunc_fint f64 y x (conj F1 V1))). fill It.
  - destruct (lin_to_exact 32 f64 _ t lin32_to_float64 ltac:(right; split; [reflexivity|discriminate]) It) as (y & E & H).
    rewrite V in H. destruct H as (F1 & V1 & _). rewrite E. cbn [bind]. rewrite (f2int_cases f64 y x (conj F1 V1)), F. cbn [bind].
    rewrite (feq_isf y _ _ _ (conj F1 V1) (trunc_fint f64 y x (conj F1 V1))). fill It.
  - destruct (lin_to_exact 64 f80 _ t lin64_to_extended_float ltac:(left; reflexivity) It) as (y & E & H).
    rewrite V in H. destruct H as (F1 & V1 & _). rewrite E. cbn [bind]. change (ld x86_64) with f80. rewrite (f2int_cases f80 y x (conj F1 V1)), F. cbn [bind].
    rewrite (feq_isf y _ _ _ (conj F1 V1) (trunc_fint f80 y x (conj F1 V1))). fill It.
Qed.
Lemma number_from_lin_ub : forall T t, kind_of T = Linear -> is_intn (bits_of T) t ->
  match value Linear (bits_of T) t with None => True | Some x => fits_s 64 (Ztrunc x) = false end ->
  number_from lm T t = UB.
Proof.
  intros T t K It H.
  destruct T; try discriminate K; cbn [bits_of width_of bits] in It, H; cbn [number_from].
  all: unfold number_from_takum_linear8, number_from_takum_linear16, number_from_takum_linear32, number_from_takum_linear64.
  - destruct (lin_to_exact 8 f64 _ t lin8_to_float64 ltac:(right; split; [reflexivity|discriminate]) It) as (y & E & Hy).
    rewrite E. cbn [bind]. destruct (value Linear 8 t) as [x|]; [|rewrite Hy; reflexivity].
    destruct Hy as (F1 & V1 & _). rewrite (f2int_cases f64 y x (conj F1 V1)), H. reflexivity.
  - destruct (lin_to_exact 16 f64 _ t lin16_to_float64 ltac:(right; split; [reflexivity|discriminate]) It) as (y & E & Hy).
    rewrite E. cbn [bind]. destruct (value Linear 16 t) as [x|]; [|rewrite Hy; reflexivity].
    destruct Hy as (F1 & V1 & _). rewrite (f2int_cases f64 y x (conj F1 V1)), H. reflexivity.
  - destruct (lin_to_exact 32 f64 _ t lin32_to_float64 ltac:(right; split; [reflexivity|discriminate]) It) as (y & E & Hy).
    rewrite E. cbn [bind]. destruct (value Linear 32 t) as [x|]; [|rewrite Hy; reflexivity].
    destruct Hy as (F1 & V1 & _). rewrite (f2int_cases f64 y x (conj F1 V1)), H. reflexivity.
  - destruct (lin_to_exact 64 f80 _ t lin64_to_extended_float ltac:(left; reflexivity) It) as (y & E & Hy).
    rewrite E. cbn [bind]. change (ld x86_64) with f80. destruct (value Linear 64 t) as [x|]; [|rewrite Hy; reflexivity].
    destruct Hy as (F1 & V1 & _). rewrite (f2int_cases f80 y x (conj F1 V1)), H. reflexivity.
Qed.

(** both together *)
Lemma number_from_spec : forall T r, is_intn (bits_of T) r ->
  (acceptable (kind_of T) (bits_of T) r ->
     exists nb, number_from lm T r = Val nb /\ consistent nb /\ is_result T r (abstract nb)) /\
  (~ acceptable (kind_of T) (bits_of T) r -> number_from lm T r = UB).
Proof.
  intros T r Ir.
  assert (forall i, filled T r i (number_from lm T r) -> acceptable (kind_of T) (bits_of T) r ->
    known_integer (kind_of T) (bits_of T) r (if i =? 2 ^ 63 - 1 then None else Some i) ->
    exists nb, number_from lm T r = Val nb /\ consistent nb /\ is_result T r (abstract nb)) as G.
  { intros i (nb & E & C & Q) A K. injection Q as Q1 Q2 Q3. exists nb. split; [assumption|]. split; [assumption|].
    unfold is_result, abstract. cbn [vtype vtakum vint]. rewrite Q1, Q2, Q3. auto. }
  destruct (kind_of T) eqn:K.
  - split.
    + intros A. apply (G _ (number_from_log T r K Ir)); [rewrite <- K in A|]; [rewrite K in A; exact A|].
      apply log_int_known; [apply bits_std|assumption].
    + intros A. exfalso. apply A. intros X. discriminate X.
  - split.
    + intros A. destruct (A eq_refl) as (x & V & R). apply fits_trunc in R.
      apply (G _ (number_from_lin_ok T r x K Ir V R)); [exact A|]. apply lin_int_known; assumption.
    + intros A. apply number_from_lin_ub; try assumption. destruct (value Linear (bits_of T) r) as [x|] eqn:V; [|exact Logic.I].
      destruct (fits_s 64 (Ztrunc x)) eqn:F; [|reflexivity]. exfalso. apply A. intros _. exists x. split; [assumption|]. apply fits_trunc. assumption.
Qed.
End Numbers.
