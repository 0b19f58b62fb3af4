(** Floats to narrow linear takums through linear takum64 (C126, C127). *)
From Coq Require Import ZArith Reals Bool Lia Lra.
From Flocq Require Import Core.Core IEEE754.BinarySingleNaN.
From Verif Require Import CModel FloatModel Spec FloatSpec FloatFacts CodeFacts RoundFacts SpecFacts WidthProps WidthConv WidthApi Conversion LinApi ValueFacts LinFacts LinProps LinOps WidthSteps FixFacts LogProps LinRefute Exactly.
Local Open Scope R_scope.

Lemma float_has_takum : forall F g (f : flt F), linear_from_float 64 F g -> (F = f32 \/ F = f64) -> is_finite f = true -> B2R f <> 0 ->
  has_takum Linear 64 (B2R f) \/ 255 <= Rabs (coord Linear (B2R f)).
Proof.
  intros F g f H HF Fi N0. set (x := B2R f) in *.
  destruct (Rlt_or_le (bpow radix2 (-255)) (Rabs x)) as [H1|H1]; [destruct (Rlt_or_le (Rabs x) (bpow radix2 255)) as [H2|H2]|].
  - left. destruct (lin_from_lossless 64 F g f H Fi ltac:(lia) (conj H1 H2)) as (t & _ & R & V).
    + pose proof (lin_coord_strict x 255 N0 (conj H1 H2)) as HL.
      assert (-255 <= Zfloor (lin_coord x) <= 254)%Z as Hz.
      { split; [apply Zfloor_lub; lra|]. assert (Zfloor (lin_coord x) < 255)%Z; [|lia]. apply lt_IZR. eapply Rle_lt_trans; [apply Zfloor_lb|]. lra. }
      destruct (DRof_spec (Zfloor (lin_coord x)) ltac:(lia)) as [HD _]. pose proof (regZ_bounds _ HD) as Hb. fold x.
      destruct HF as [-> | ->]; cbn [fprec]; lia.
    + exists t. split; [|exact V]. destruct R as (R & _). exact R.
  - right. pose proof (FixFacts.lin_coord_abs x 255 N0 H2). cbn [coord]. rewrite Rabs_pos_eq by lra. assumption.
  - right. assert (lin_coord x <= -255).
    { assert (lin_coord (bpow radix2 (-255)) = -255) as <-.
      { rewrite <- (ValueFacts.lin_coord_Lin (-255)). f_equal. unfold Lin. change (-255) with (IZR (-255)). rewrite Zfloor_IZR. ring. }
      rewrite <- (LinOps.lin_coord_abs x). apply (LogProps.coord_le Linear). split; [apply Rabs_pos_lt; assumption|assumption]. }
    cbn [coord]. rewrite Rabs_left1 by lra. lra.
Qed.

Theorem detour_rounds : forall n F g h (f : flt F), linear_from_float 64 F g -> (F = f32 \/ F = f64) -> narrowing Linear 64 n h -> is_finite f = true ->
  exists t v, g f = Val t /\ h t = Val v /\ is_intn n v /\ rounds Linear n (B2R f) v.
Proof.
  intros n F g h f Hg HF Hh Fi. destruct (lin_from_correct 64 F g f Hg ltac:(lia) HF Fi) as (t & Et & It & Rt).
  exists t. destruct (Req_dec (B2R f) 0) as [Z|N].
  - destruct Rt as [(_ & ->)|(N & _)]; [|contradiction].
    destruct (narrowing_rounds _ _ _ _ 0%Z Hh ltac:(split; reflexivity || discriminate)) as (v & Ev & Iv & Rv).
    exists v. rewrite Et. repeat split; try assumption; try apply Iv. rewrite Z. exact Rv.
  - destruct (narrow_exact Linear n 64 h (B2R f) t Hh (WidthSteps.rounds_faithful _ _ _ _ ltac:(right; right; right; reflexivity) Rt) (float_has_takum F g f Hg HF Fi N)) as (v & Ev & Iv & Rv).
    exists v. auto.
Qed.

Theorem detour_32 : forall F g h d (f : flt F), linear_from_float 64 F g -> (F = f32 \/ F = f64) -> narrowing Linear 64 32 h -> linear_from_float 32 F d ->
  is_finite f = true -> (let! t := g f in h t) = d f.
Proof.
  intros F g h d f Hg HF Hh Hd Fi. destruct (detour_rounds 32 F g h f Hg HF Hh Fi) as (t & v & -> & E & _ & Rv). cbn [bind]. rewrite E.
  destruct (lin_from_correct 32 F d f Hd ltac:(lia) HF Fi) as (w & -> & _ & Rw). f_equal. eapply rounds_unique; [|eassumption..]. lia.
Qed.

Theorem detour_refuted : forall n F g h d, linear_from_float 64 F g -> (F = f32 \/ F = f64) -> narrowing Linear 64 n h -> linear_from_float n F d -> (n <= 16)%Z ->
  exists f, is_finite f = true /\ (let! t := g f in h t) <> d f.
Proof.
  intros n F g h d Hg HF Hh Hd Hn. destruct (lin_from_refuted n F d Hd (or_introl Hn)) as (f & w & Fi & E & N).
  exists f. split; [assumption|]. destruct (detour_rounds n F g h f Hg HF Hh Fi) as (t & v & -> & Ev & _ & Rv). cbn [bind].
  rewrite Ev, E. intros K. apply N. congruence.
Qed.
