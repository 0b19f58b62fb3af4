(** The absolute value of the difference of linear takums as a distance. *)
From Coq Require Import ZArith Reals Bool Lia Lra Psatz.
From Flocq Require Import Core.Core IEEE754.BinarySingleNaN.
From Verif Require Import CModel FloatModel WidthConv Codec Spec CodeFacts SpecFacts ValueFacts WidthFacts WidthApi WidthProps RoundFacts FloatFacts Machine Arith Wrappers LogApi LinApi LogFacts PowFacts LogProps MiscProps LinArith LinAlgebra WrapSign WaySpec AbsSign.
Local Open Scope Z_scope.

Lemma sub_signs : forall n f a b, linear_subtraction n f -> is_intn n a -> is_intn n b -> a <> nar n -> b <> nar n ->
  exists t, f a b = Val t /\ is_intn n t /\ t <> nar n /\ Z.sgn t = Z.sgn (a - b).
Proof.
  intros n f a b H Ia Ib Na Nb. assert (std_width n) as Sw by (destruct H; unfold std_width; tauto). pose proof (std_range n Sw) as Hn.
  destruct (some_value Linear n a Sw Ia Na) as [x Va]. destruct (some_value Linear n b Sw Ib Nb) as [y Vb].
  destruct (sub_faithful n f H a b Ia Ib) as (t & E & It & V). rewrite Va, Vb in V. exists t. split; [assumption|]. split; [assumption|].
  destruct (faithful_sgn Linear n _ t V) as (S1 & S2 & S3). assert (0 < 2 ^ (n - 1)) as Pn by (apply Z.pow_pos_nonneg; lia).
  destruct (Z.lt_trichotomy a b) as [C|[C|C]].
  - destruct S2 as [T T']; [apply (value_lt n ltac:(lia) Linear a b x y Ia Ib Va Vb) in C; lra|]. split; [assumption|]. clear - T C. lia.
  - assert (t = 0) as -> by (apply S3; subst b; assert (x = y) as -> by congruence; ring). split; [unfold nar; clear - Pn; lia|]. clear - C. lia.
  - assert (0 < t) as T by (apply S1; apply (value_lt n ltac:(lia) Linear b a y x Ib Ia Vb Va) in C; lra). split; [unfold nar; clear - Pn T; lia|]. clear - T C. lia.
Qed.
Theorem distance : forall n sub abs a b, linear_subtraction n sub -> absolute_value Linear n abs -> is_intn n a -> is_intn n b -> a <> nar n -> b <> nar n ->
  exists u v d, sub a b = Val u /\ sub b a = Val v /\ abs u = Val d /\ abs v = Val d /\ is_intn n d /\ 0 <= d /\ (d = 0 <-> a = b).
Proof.
  intros n sub abs a b H Ha Ia Ib Na Nb. destruct (sub_signs n sub a b H Ia Ib Na Nb) as (t & E & It & Nt & St).
  assert (std_width n) as Sw by (destruct H; unfold std_width; tauto). pose proof (std_range n Sw) as Hn.
  pose proof (sub_swap n sub a b t H Ia Ib Na Nb E) as E'. destruct (neg_intn n t Hn It Nt) as [It' Nt'].
  destruct (abs_val Linear n abs t Ha It Nt) as (A & IA & _). destruct (abs_val Linear n abs _ Ha It' Nt') as (A' & _). rewrite Z.abs_opp in A'.
  exists t, (- t), (Z.abs t). repeat (split; [assumption|]). split; [apply Z.abs_nonneg|]. clear - St. lia.
Qed.
Lemma abs_le : forall x y, x <= y -> - x <= y -> Z.abs x <= y.
Proof. intros x y H H'. lia. Qed.
Theorem triangle : forall n add abs a b, linear_addition n add -> absolute_value Linear n abs -> is_intn n a -> is_intn n b -> a <> nar n -> b <> nar n ->
  exists a' b' u v s, abs a = Val a' /\ abs b = Val b' /\ add a b = Val u /\ abs u = Val v /\ add a' b' = Val s /\ v <= s.
Proof.
  intros n add abs a b H Ha Ia Ib Na Nb. assert (std_width n) as Sw by (destruct H; unfold std_width; tauto). pose proof (std_range n Sw) as Hn.
  destruct (abs_val Linear n abs a Ha Ia Na) as (Ea & Ia' & Na'). destruct (abs_val Linear n abs b Ha Ib Nb) as (Eb & Ib' & Nb').
  destruct (neg_intn n a Hn Ia Na) as [J1 J2]. destruct (neg_intn n b Hn Ib Nb) as [J3 J4].
  assert (exists u, add a b = Val u /\ is_intn n u /\ u <> nar n) as (u & E & Iu & Nu).
  { destruct (some_value Linear n a Sw Ia Na) as [x Va]. destruct (some_value Linear n b Sw Ib Nb) as [y Vb].
    destruct (add_faithful n add H a b Ia Ib) as (t & E & It & V). rewrite Va, Vb in V. exists t. split; [assumption|]. split; [assumption|].
    intros ->. destruct V as [[_ K]|[_ V]]; [unfold nar in K; pose proof (Z.pow_pos_nonneg 2 (n - 1)); lia|apply V; reflexivity]. }
  destruct (abs_val Linear n abs u Ha Iu Nu) as (A & _).
  assert (exists s, add (Z.abs a) (Z.abs b) = Val s) as (s & Es) by (destruct (add_faithful n add H _ _ Ia' Ib') as (s & Es & _); eauto).
  exists (Z.abs a), (Z.abs b), u, (Z.abs u), s. repeat (split; [assumption|]). apply abs_le.
  - apply (add_mono n add a b (Z.abs a) (Z.abs b)); try assumption; [clear; lia|clear; lia].
  - apply (add_mono n add (- a) (- b) (Z.abs a) (Z.abs b)); try assumption; [clear; lia|clear; lia|apply add_neg with (n := n); assumption].
Qed.
Theorem reverse_triangle : forall n sub abs a b, linear_subtraction n sub -> absolute_value Linear n abs -> is_intn n a -> is_intn n b -> a <> nar n -> b <> nar n ->
  exists a' b' u v s r, abs a = Val a' /\ abs b = Val b' /\ sub a b = Val u /\ abs u = Val v /\ sub a' b' = Val s /\ abs s = Val r /\ r <= v.
Proof.
  intros n sub abs a b H Ha Ia Ib Na Nb. assert (std_width n) as Sw by (destruct H; unfold std_width; tauto). pose proof (std_range n Sw) as Hn.
  destruct (abs_val Linear n abs a Ha Ia Na) as (Ea & Ia' & Na'). destruct (abs_val Linear n abs b Ha Ib Nb) as (Eb & Ib' & Nb').
  destruct (neg_intn n a Hn Ia Na) as [J1 J2]. destruct (neg_intn n b Hn Ib Nb) as [J3 J4].
  destruct (sub_signs n sub a b H Ia Ib Na Nb) as (u & E & Iu & Nu & Su). destruct (sub_signs n sub _ _ H Ia' Ib' Na' Nb') as (s & Es & Is & Ns & Ss).
  destruct (abs_val Linear n abs u Ha Iu Nu) as (A & _). destruct (abs_val Linear n abs s Ha Is Ns) as (B & _).
  exists (Z.abs a), (Z.abs b), u, (Z.abs u), s, (Z.abs s). repeat (split; [assumption|]).
  pose proof (sub_swap n sub a b u H Ia Ib Na Nb E) as E'. pose proof (sub_swap n sub _ _ s H Ia' Ib' Na' Nb' Es) as Es'.
  destruct (Z_le_gt_dec 0 a) as [Ca|Ca].
  - rewrite (Z.abs_eq a) in * by assumption. destruct (Z_le_gt_dec 0 b) as [Cb|Cb].
    + rewrite (Z.abs_eq b) in * by assumption. assert (s = u) as -> by congruence. reflexivity.
    + assert (0 <= u) as Pu by (clear - Su Ca Cb; lia). rewrite (Z.abs_eq u) by assumption. apply abs_le.
      * apply (sub_mono n sub a (Z.abs b) a b); try assumption; [reflexivity|clear - Cb; lia].
      * apply (sub_mono n sub (Z.abs b) a (Z.abs b) (- a)); try assumption; [reflexivity|clear - Ca; lia|].
        pose proof (sub_swap n sub a b u H Ia Ib Na Nb E). rewrite (Z.abs_neq b) by lia.
        assert (exists g, linear_addition n g) as (g & Hg) by (destruct Sw as [-> |[-> |[-> | ->]]]; eexists; constructor).
        rewrite (sub_is_add_opp n sub g) by assumption. rewrite (addition_commutes n g) by (rewrite ?Z.opp_involutive; assumption). rewrite Z.opp_involutive, <- (sub_is_add_opp n sub g) by assumption. assumption.
  - assert (Z.abs a = - a) as Aa by (clear - Ca; lia).
    assert (exists g, linear_addition n g) as (g & Hg) by (destruct Sw as [-> |[-> |[-> | ->]]]; eexists; constructor).
    assert (sub (- a) (- b) = sub b a) as Q.
    { rewrite (sub_is_add_opp n sub g) by assumption. rewrite Z.opp_involutive. rewrite (addition_commutes n g) by assumption. rewrite <- (sub_is_add_opp n sub g) by assumption. reflexivity. }
    destruct (Z_le_gt_dec 0 b) as [Cb|Cb].
    + rewrite (Z.abs_eq b) in * by assumption. assert (u < 0 \/ (u = 0 /\ b = 0)) as Pu by (clear - Su Ca Cb; lia). replace (Z.abs u) with (- u) by (clear - Pu; lia). rewrite Aa in *. apply abs_le.
      * apply (sub_mono n sub (- a) b (- a) (- b)); try assumption; [reflexivity|clear - Cb; lia|congruence].
      * apply (sub_mono n sub b (- a) b a); try assumption; [reflexivity|clear - Ca; lia].
    + assert (Z.abs b = - b) as Ab by (clear - Cb; lia). rewrite Aa, Ab in *.
      assert (s = - u) as -> by congruence. rewrite Z.abs_opp. reflexivity.
Qed.

(** 1, -d and -2d where 1 + d is rounded to 1 and 1 + 2d is not *)
Lemma distance_not_metric :
  (takum_linear_subtraction x86_64 W8 0x40 (-47) = Val 0x41 /\ takum_linear_subtraction x86_64 W8 0x40 (-45) = Val 0x40 /\
   takum_linear_subtraction x86_64 W8 (-45) (-47) = Val 45 /\ takum_linear_addition x86_64 W8 0x40 45 = Val 0x40) /\
  (takum_linear_subtraction x86_64 W16 0x4000 (-9088) = Val 0x4001 /\ takum_linear_subtraction x86_64 W16 0x4000 (-8832) = Val 0x4000 /\
   takum_linear_subtraction x86_64 W16 (-8832) (-9088) = Val 8832 /\ takum_linear_addition x86_64 W16 0x4000 8832 = Val 0x4000) /\
  (takum_linear_subtraction x86_64 W32 0x40000000 (-432013312) = Val 0x40000001 /\ takum_linear_subtraction x86_64 W32 0x40000000 (-423624704) = Val 0x40000000 /\
   takum_linear_subtraction x86_64 W32 (-423624704) (-432013312) = Val 423624704 /\ takum_linear_addition x86_64 W32 0x40000000 423624704 = Val 0x40000000) /\
  (takum_linear_subtraction x86_64 W64 0x4000000000000000 (-1215971899390033920) = Val 0x4000000000000001 /\
   takum_linear_subtraction x86_64 W64 0x4000000000000000 (-1197957500880551936) = Val 0x4000000000000000 /\
   takum_linear_subtraction x86_64 W64 (-1197957500880551936) (-1215971899390033920) = Val 1197957500880551936 /\
   takum_linear_addition x86_64 W64 0x4000000000000000 1197957500880551936 = Val 0x4000000000000000).
Proof. repeat split; vm_compute; reflexivity. Qed.
Theorem distance_metric_refuted : forall n sub add abs, linear_subtraction n sub -> linear_addition n add -> absolute_value Linear n abs ->
  ~ (forall a b c u v w u' v' w' s, is_intn n a -> is_intn n b -> is_intn n c -> a <> nar n -> b <> nar n -> c <> nar n ->
       sub a c = Val u -> sub a b = Val v -> sub b c = Val w -> abs u = Val u' -> abs v = Val v' -> abs w = Val w' ->
       add v' w' = Val s -> u' <= s).
Proof.
  intros n sub add abs Hs Ha Hb H. destruct distance_not_metric as ((A1 & A2 & A3 & A4) & (B1 & B2 & B3 & B4) & (C1 & C2 & C3 & C4) & (D1 & D2 & D3 & D4)).
  destruct Hs.
  - inversion Ha; subst. inversion Hb; subst. specialize (H 0x40 (-45) (-47) 0x41 0x40 (45) 0x41 0x40 45 _ ltac:(unfold is_intn; lia) ltac:(unfold is_intn; lia) ltac:(unfold is_intn; lia) ltac:(unfold nar; lia) ltac:(unfold nar; lia) ltac:(unfold nar; lia) A1 A2 A3 ltac:(vm_compute; reflexivity) ltac:(vm_compute; reflexivity) ltac:(vm_compute; reflexivity) A4). lia.
  - inversion Ha; subst. inversion Hb; subst. specialize (H 0x4000 (-8832) (-9088) 0x4001 0x4000 8832 0x4001 0x4000 8832 _ ltac:(unfold is_intn; lia) ltac:(unfold is_intn; lia) ltac:(unfold is_intn; lia) ltac:(unfold nar; lia) ltac:(unfold nar; lia) ltac:(unfold nar; lia) B1 B2 B3 ltac:(vm_compute; reflexivity) ltac:(vm_compute; reflexivity) ltac:(vm_compute; reflexivity) B4). lia.
  - inversion Ha; subst. inversion Hb; subst. specialize (H 0x40000000 (-423624704) (-432013312) 0x40000001 0x40000000 423624704 0x40000001 0x40000000 423624704 _ ltac:(unfold is_intn; lia) ltac:(unfold is_intn; lia) ltac:(unfold is_intn; lia) ltac:(unfold nar; lia) ltac:(unfold nar; lia) ltac:(unfold nar; lia) C1 C2 C3 ltac:(vm_compute; reflexivity) ltac:(vm_compute; reflexivity) ltac:(vm_compute; reflexivity) C4). lia.
  - inversion Ha; subst. inversion Hb; subst. specialize (H 0x4000000000000000 (-1197957500880551936) (-1215971899390033920) 0x4000000000000001 0x4000000000000000 1197957500880551936 0x4000000000000001 0x4000000000000000 1197957500880551936 _ ltac:(unfold is_intn; lia) ltac:(unfold is_intn; lia) ltac:(unfold is_intn; lia) ltac:(unfold nar; lia) ltac:(unfold nar; lia) ltac:(unfold nar; lia) D1 D2 D3 ltac:(vm_compute; reflexivity) ltac:(vm_compute; reflexivity) ltac:(vm_compute; reflexivity) D4). lia.
Qed.
Lemma distance_case : linear_subtraction 16 (takum_linear_subtraction x86_64 W16) /\ linear_addition 16 (takum_linear_addition x86_64 W16) /\ absolute_value Linear 16 takum_linear16_absolute /\
  is_intn 16 (-0x5123) /\ is_intn 16 0x4035 /\ (-0x5123) <> nar 16 /\ 0x4035 <> nar 16 /\
  takum_linear_subtraction x86_64 W16 (-0x5123) 0x4035 = Val (-0x5165) /\ takum_linear_addition x86_64 W16 0x5123 0x4035 = Val 0x5165.
Proof. split; [constructor|]. split; [constructor|]. split; [constructor|]. split; [unfold is_intn; lia|]. split; [unfold is_intn; lia|]. split; [unfold nar; lia|]. split; [unfold nar; lia|]. split; vm_compute; reflexivity. Qed.
