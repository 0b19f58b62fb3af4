(** Monotone conversions from floats. *)
From Coq Require Import ZArith Reals Bool Lia Lra.
From Flocq Require Import Core.Core IEEE754.BinarySingleNaN.
From Verif Require Import CModel FloatModel Libm LibmSpec WidthConv Wrappers Conversion Codec Spec FloatSpec CodeFacts SpecFacts ValueFacts RoundFacts WidthFacts WidthApi WidthProps FloatFacts Machine LibmIdeal WrapApi WrapSpec LogApi LinApi LinProps LogConv WrapTotal FloatAcc FixFacts MonoFloat MonoSpec.
Local Open Scope R_scope.

(** ** Logarithmic takums *)
Definition cg_mono {H G : fmt} (cg : flt H -> flt G) : Prop :=
  forall x y a b, isf x a -> isf y b -> Rabs a <= bpow radix2 17 -> Rabs b <= bpow radix2 17 -> a <= b -> exists a' b', isf (cg x) a' /\ isf (cg y) b' /\ a' <= b'.
Lemma cgm_id : forall F, @cg_mono F F (fun x => x).
Proof. intros F x y a b Hx Hy _ _ H. exists a, b. auto. Qed.
Lemma cgm_cast : forall F G, (17 < femax G)%Z -> (femin G <= 17)%Z -> cg_mono (@fcast F G).
Proof.
  intros F G HG HG' x y a b Hx Hy Ba Bb H. exists (RF G a), (RF G b). split; [|split; [|apply RF_mono; assumption]]; (apply isf_fcast; [assumption|]; apply (RF_lt_emax G _ 17); [lia|assumption]).
Qed.

Definition log_mono_form (lm : libm) (n : Z) (F : fmt) (f : flt F -> outcome Z) : Prop :=
  exists m H (ch : flt F -> flt H) cg (nw : Z -> outcome Z), mach_ok m /\ (forall x b, isf x b -> isf (ch x) b) /\ cg_mono cg /\
    ((m_n m = n /\ forall t, nw t = Val t) \/ (m_n m = 64%Z /\ (n < 64)%Z /\ narrowing Logarithmic 64 n nw)) /\
    forall y, f y = if feq y (fzero F) then Val 0%Z else if negb (fisfinite y) then Val (NaR n) else bind (log_enc lm m H ch cg y) nw.
Lemma log_from_mono_form : forall lm n F f, log_from_float lm n F f -> log_mono_form lm n F f.
Proof.
  assert (forall F G, fsub_fmt F G -> forall (x : flt F) b, isf x b -> isf (fcast G x) b) as UP by (intros F G HS x b; apply isf_fcast_up; assumption).
  intros lm n F f [].
  - exists mach8, f64, (fcast f64), (fcast f32), (fun t => Val t). split; [apply mach8_ok|]. split; [apply UP; split; simpl; lia|].
    split; [apply cgm_cast; unfold femin; simpl; lia|]. split; [left; split; reflexivity|]. intros y. rewrite bind_val. reflexivity.
  - exists mach16, f64, (fcast f64), (fun x => x), (fun t => Val t). split; [apply mach16_ok|]. split; [apply UP; split; simpl; lia|].
    split; [apply cgm_id|]. split; [left; split; reflexivity|]. intros y. rewrite bind_val. reflexivity.
  - exists mach32, f64, (fcast f64), (fcast f80), (fun t => Val t). split; [apply mach32_ok|]. split; [apply UP; split; simpl; lia|].
    split; [apply cgm_cast; unfold femin; simpl; lia|]. split; [left; split; reflexivity|]. intros y. rewrite bind_val. reflexivity.
  - exists mach64, f80, (fcast f80), (fun x => x), (fun t => Val t). split; [apply mach64_ok|]. split; [apply UP; split; simpl; lia|].
    split; [apply cgm_id|]. split; [left; split; reflexivity|]. intros y. rewrite bind_val. reflexivity.
  - exists mach64, f80, (fcast f80), (fun x => x), takum8_from_takum64. split; [apply mach64_ok|]. split; [apply UP; split; simpl; lia|].
    split; [apply cgm_id|]. split; [right; split; [reflexivity|split; [lia|constructor]]|]. reflexivity.
  - exists mach64, f80, (fcast f80), (fun x => x), takum16_from_takum64. split; [apply mach64_ok|]. split; [apply UP; split; simpl; lia|].
    split; [apply cgm_id|]. split; [right; split; [reflexivity|split; [lia|constructor]]|]. reflexivity.
  - exists mach32, f80, (fcast f80), (fun x => x), (fun t => Val t). split; [apply mach32_ok|]. split; [apply UP; split; simpl; lia|].
    split; [apply cgm_id|]. split; [left; split; reflexivity|]. intros y. rewrite bind_val. reflexivity.
  - exists mach64, f80, (fcast f80), (fun x => x), (fun t => Val t). split; [apply mach64_ok|]. split; [apply UP; split; simpl; lia|].
    split; [apply cgm_id|]. split; [left; split; reflexivity|]. intros y. rewrite bind_val. reflexivity.
  - exists mach64, f80, (fun x => x), (fun x => x), takum8_from_takum64. split; [apply mach64_ok|]. split; [auto|].
    split; [apply cgm_id|]. split; [right; split; [reflexivity|split; [lia|constructor]]|]. reflexivity.
  - exists mach64, f80, (fun x => x), (fun x => x), takum16_from_takum64. split; [apply mach64_ok|]. split; [auto|].
    split; [apply cgm_id|]. split; [right; split; [reflexivity|split; [lia|constructor]]|]. reflexivity.
  - exists mach64, f80, (fun x => x), (fun x => x), takum32_from_takum64. split; [apply mach64_ok|]. split; [auto|].
    split; [apply cgm_id|]. split; [right; split; [reflexivity|split; [lia|constructor]]|]. reflexivity.
  - exists mach64, f80, (fun x => x), (fun x => x), (fun t => Val t). split; [apply mach64_ok|]. split; [auto|].
    split; [apply cgm_id|]. split; [left; split; reflexivity|]. intros y. rewrite bind_val. reflexivity.
Qed.

Lemma two_isf : forall F, isf (fint F 2) 2.
Proof. intros F. apply isf_fint. destruct F; simpl; lia. Qed.

Lemma logs_mono : forall lm H (x y : flt H) a b, c99 lm -> monotone lm -> isf x a -> isf y b -> 0 < a <= b ->
  exists L M, isf (fmul (fint H 2) (clog lm x)) L /\ isf (fmul (fint H 2) (clog lm y)) M /\ Rabs L <= bpow radix2 17 /\ Rabs M <= bpow radix2 17 /\ L <= M.
Proof.
  intros lm H x y a b C Mo Hx Hy [Pa Hab]. destruct (log_val lm H x a C Hx Pa) as (L & IL & _ & BL & _). destruct (log_val lm H y b C Hy ltac:(lra)) as (M & IM & _ & BM & _).
  exists L, M. split; [assumption|]. split; [assumption|]. split; [assumption|]. split; [assumption|].
  assert (forall z c, isf z c -> 0 < c -> is_nan (lib1 lm Flog H z) = false) as NN.
  { intros z c [Fz Vz] Pz. destruct (c_in lm C Flog H z Fz) as [N _]; [simpl; lra|]. exact N. }
  pose proof (mono_inc lm Mo Flog H x y eq_refl (proj1 Hx) (proj1 Hy)) as K.
  rewrite (proj2 Hx), (proj2 Hy) in K. specialize (K Hab (NN x a Hx Pa) (NN y b Hy ltac:(lra))).
  pose proof (mul_mono H (fint H 2) _ _ 2 (two_isf H) ltac:(lra) K) as K2.
  change (fle (fmul (fint H 2) (clog lm x)) (fmul (fint H 2) (clog lm y)) = true) in K2.
  rewrite (fle_isf _ _ _ _ IL IM) in K2. destruct (Rle_bool_spec L M); [assumption|discriminate].
Qed.

Lemma log_enc_mono : forall lm m H F (ch : flt F -> flt H) cg (x y : flt F) a b t u, c99 lm -> monotone lm -> mach_ok m -> (forall x b, isf x b -> isf (ch x) b) -> cg_mono cg ->
  isf x a -> isf y b -> a <> 0 -> b <> 0 -> a <= b -> log_enc lm m H ch cg x = Val t -> log_enc lm m H ch cg y = Val u -> (t <= u)%Z.
Proof.
  intros lm m H F ch cg x y a b t u C Mo Hm Hch Hcg Hx Hy Na Nb Hab Et Eu. unfold log_enc in Et, Eu. pose proof (mo_range m Hm) as Hn.
  rewrite (flt_isf x (fzero F) a 0 Hx (FloatFacts.isf_zero F)) in Et. rewrite (flt_isf y (fzero F) b 0 Hy (FloatFacts.isf_zero F)) in Eu.
  pose proof (isf_ffabs _ _ (Hch _ _ Hx)) as Ax. pose proof (isf_ffabs _ _ (Hch _ _ Hy)) as Ay.
  assert (forall z c L, isf z c -> Rabs L <= bpow radix2 17 -> isf (fmul (fint H 2) (clog lm (ffabs (ch z)))) L -> exists L', isf (cg (fmul (fint H 2) (clog lm (ffabs (ch z))))) L') as CG.
  { intros z c L Hz BL IL. destruct (Hcg _ _ L L IL IL BL BL ltac:(lra)) as (L' & _ & IL' & _). eauto. }
  assert (forall s z, (asm (m_n m) s (enc (m_n m) z) < 0)%Z <-> s = true) as SG.
  { intros s z. pose proof (enc_bounds (m_n m) ltac:(lia) z) as B. unfold umax, asm in *. destruct s; split; intros; try lia; try reflexivity; discriminate. }
  destruct (Rlt_bool_spec a 0) as [Sa|Sa], (Rlt_bool_spec b 0) as [Sb|Sb]; try (exfalso; lra).
  - rewrite !Rabs_left in * by assumption.
    destruct (logs_mono lm H _ _ _ _ C Mo Ay Ax ltac:(lra)) as (L & M & IL & IM & BL & BM & LM). destruct (Hcg _ _ _ _ IL IM BL BM LM) as (L' & M' & IL' & IM' & LM').
    rewrite (mo_enc m Hm _ _ _ IM') in Et. rewrite (mo_enc m Hm _ _ _ IL') in Eu. injection Et as <-. injection Eu as <-. unfold asm, sg.
    enough (enc (m_n m) (m_psi m (-1 * M')) <= enc (m_n m) (m_psi m (-1 * L')))%Z by lia. apply enc_mono; [lia|]. apply (mo_psi_mono m Hm). lra.
  - destruct (log_val lm H _ _ C Ax (Rabs_pos_lt _ Na)) as (L & IL & _ & BL & _). destruct (log_val lm H _ _ C Ay (Rabs_pos_lt _ Nb)) as (M & IM & _ & BM & _).
    destruct (CG x a L Hx BL IL) as (L' & IL'). destruct (CG y b M Hy BM IM) as (M' & IM').
    rewrite (mo_enc m Hm _ _ _ IL') in Et. rewrite (mo_enc m Hm _ _ _ IM') in Eu.
    match type of Et with Val ?z = _ => assert (z < 0)%Z as K1 by (apply SG; reflexivity); assert (t = z) as -> by congruence end.
    match type of Eu with Val ?z = _ => assert (~ (z < 0))%Z as K2 by (rewrite SG; discriminate); assert (u = z) as -> by congruence end. lia.
  - rewrite !Rabs_pos_eq in * by lra.
    destruct (logs_mono lm H _ _ _ _ C Mo Ax Ay ltac:(lra)) as (L & M & IL & IM & BL & BM & LM). destruct (Hcg _ _ _ _ IL IM BL BM LM) as (L' & M' & IL' & IM' & LM').
    rewrite (mo_enc m Hm _ _ _ IL') in Et. rewrite (mo_enc m Hm _ _ _ IM') in Eu. injection Et as <-. injection Eu as <-. unfold asm, sg.
    apply enc_mono; [lia|]. apply (mo_psi_mono m Hm). lra.
Qed.

Theorem log_from_mono : forall lm n F f (x y : flt F) t u, c99 lm -> monotone lm -> log_from_float lm n F f ->
  is_finite x = true -> is_finite y = true -> B2R x <= B2R y -> f x = Val t -> f y = Val u -> (t <= u)%Z.
Proof.
  intros lm n F f x y t u C Mo H Fx Fy Hab Et Eu.
  destruct (log_from_faithful lm n F f x C H Fx) as (t' & Et' & Rt). rewrite Et in Et'. injection Et' as <-.
  destruct (log_from_faithful lm n F f y C H Fy) as (u' & Eu' & Ru). rewrite Eu in Eu'. injection Eu' as <-.
  assert (forall z v, rounds_faithfully Logarithmic n z v -> (z = 0 -> v = 0%Z) /\ (z < 0 -> (v < 0)%Z) /\ (0 < z -> (0 < v)%Z)) as SG.
  { intros z v [[-> ->]|[Nz (_ & S & _)]]; [split; [auto|split; intros; lra]|]. split; [contradiction|]. unfold has_sign in S. destruct (Rlt_bool_spec z 0); split; intros; try lra; exact S. }
  destruct (SG _ _ Rt) as (T0 & T1 & T2). destruct (SG _ _ Ru) as (U0 & U1 & U2).
  destruct (Req_dec (B2R x) 0) as [Zx|Nx]; [|destruct (Req_dec (B2R y) 0) as [Zy|Ny]].
  - rewrite (T0 Zx). destruct (Req_dec (B2R y) 0) as [Zy|Ny]; [rewrite (U0 Zy)|specialize (U2 ltac:(lra))]; lia.
  - rewrite (U0 Zy). specialize (T1 ltac:(lra)). lia.
  - destruct (log_from_mono_form lm n F f H) as (m & H0 & ch & cg & nw & Hm & Hch & Hcg & Hnw & Hf). rewrite Hf in Et, Eu.
    assert (isf x (B2R x)) as Ix by (split; [assumption|reflexivity]). assert (isf y (B2R y)) as Iy by (split; [assumption|reflexivity]).
    rewrite (feq_isf _ _ _ _ Ix (FloatFacts.isf_zero F)), Req_bool_false, (fisfinite_isf _ _ Ix) in Et by assumption.
    rewrite (feq_isf _ _ _ _ Iy (FloatFacts.isf_zero F)), Req_bool_false, (fisfinite_isf _ _ Iy) in Eu by assumption. cbn [negb] in Et, Eu.
    destruct (log_enc lm m H0 ch cg x) as [t0|] eqn:E1; [|discriminate Et]. destruct (log_enc lm m H0 ch cg y) as [u0|] eqn:E2; [|discriminate Eu]. cbn [bind] in Et, Eu.
    pose proof (log_enc_mono lm m H0 F ch cg x y _ _ t0 u0 C Mo Hm Hch Hcg Ix Iy Nx Ny Hab E1 E2) as K.
    destruct Hnw as [[<- Hnw]|(E64 & Hlt & HN)].
    + rewrite Hnw in Et, Eu. congruence.
    + assert (forall z v, log_enc lm m H0 ch cg z = Val v -> is_finite z = true -> B2R z <> 0 -> is_intn 64 v) as R64.
      { intros z v Ez Fz Nz. unfold log_enc in Ez. assert (isf z (B2R z)) as Iz by (split; [assumption|reflexivity]).
        destruct (log_val lm H0 _ _ C (isf_ffabs _ _ (Hch _ _ Iz)) (Rabs_pos_lt _ Nz)) as (L & IL & _ & BL & _). destruct (Hcg _ _ _ _ IL IL BL BL ltac:(lra)) as (L' & _ & IL' & _).
        rewrite (mo_enc m Hm _ _ _ IL') in Ez. rewrite E64 in Ez. match type of Ez with Val ?q = _ => assert (v = q) as -> by congruence end. apply asm_enc_intn. lia. }
      eapply (narrowing_mono Logarithmic 64 n nw t0 u0 t u HN); eauto.
Qed.

(** ** What the result fixers need *)
Record conv_ok (n : Z) (F : fmt) (T : flt F -> outcome Z) : Prop := {
  k_n : (8 <= n <= 64)%Z;
  k_val : forall y, exists t, T y = Val t /\ (t = nar n <-> is_finite y = false) /\ (is_finite y = true -> (- 2 ^ (n - 1) < t < 2 ^ (n - 1))%Z /\ ((0 < t)%Z <-> 0 < B2R y) /\ ((t < 0)%Z <-> B2R y < 0));
  k_mono : forall x y t u, is_finite x = true -> is_finite y = true -> B2R x <= B2R y -> T x = Val t -> T y = Val u -> (t <= u)%Z;
  k_dmin : T (dmin F) = Val 1%Z /\ T (fneg (dmin F)) = Val (-1)%Z;
  k_dmax : T (dmax F) = Val (2 ^ (n - 1) - 1)%Z /\ T (fneg (dmax F)) = Val (1 - 2 ^ (n - 1))%Z
}.

Lemma real_cases : forall n t, (8 <= n <= 64)%Z -> is_real_takum n t <-> ((- 2 ^ (n - 1) < t < 2 ^ (n - 1))%Z /\ t <> 0%Z).
Proof. intros n t Hn. unfold is_real_takum, is_intn, nar. lia. Qed.
Lemma faith_extreme : forall n s L t, (8 <= n <= 64)%Z -> faithful n s L t ->
  (L < -255 -> t = if s then (-1)%Z else 1%Z) /\ (255 < L -> t = if s then (1 - 2 ^ (n - 1))%Z else (2 ^ (n - 1) - 1)%Z).
Proof.
  intros n s L t Hn (R & S & M). assert (2 ^ 7 <= 2 ^ (n - 1))%Z as P7 by (apply Z.pow_le_mono_r; lia). change (2 ^ 7)%Z with 128%Z in P7.
  assert (forall t', is_real_takum n t' -> -255 <= l_ n t' <= 255) as B by (intros t' R'; pose proof (l_abs n t' ltac:(lia) R') as A; apply Rabs_le_inv in A; exact A).
  pose proof (proj1 (real_cases n t Hn) R) as [Rg Nz]. unfold has_sign in S.
  split; intros HL.
  - set (t' := if s then (-1)%Z else 1%Z). assert (is_real_takum n t') as R' by (apply real_cases; [assumption|]; unfold t'; destruct s; lia).
    destruct (M t' R' ltac:(unfold t', has_sign; destruct s; lia)) as [_ M2]. specialize (B t' R').
    assert (~ l_ n t' < l_ n t) as K by (intros K; apply M2; lra). destruct s; unfold t' in *.
    + rewrite <- (l_lt_neg n ltac:(lia) t (-1) R R' S ltac:(lia)) in K. lia.
    + rewrite <- (l_lt_pos n ltac:(lia) 1 t R' R ltac:(lia) S) in K. lia.
  - set (t' := if s then (1 - 2 ^ (n - 1))%Z else (2 ^ (n - 1) - 1)%Z). assert (is_real_takum n t') as R' by (apply real_cases; [assumption|]; unfold t'; destruct s; lia).
    destruct (M t' R' ltac:(unfold t', has_sign; destruct s; lia)) as [M1 _]. specialize (B t' R').
    assert (~ l_ n t < l_ n t') as K by (intros K; apply M1; lra). destruct s; unfold t' in *.
    + rewrite <- (l_lt_neg n ltac:(lia) (1 - 2 ^ (n - 1)) t R' R ltac:(lia) S) in K. lia.
    + rewrite <- (l_lt_pos n ltac:(lia) t (2 ^ (n - 1) - 1) R R' S ltac:(lia)) in K. lia.
Qed.

Lemma conv_make : forall k n F T, (8 <= n <= 64)%Z -> wide F ->
  (forall y, is_finite y = false -> T y = Val (nar n)) ->
  (forall y, is_finite y = true -> exists t, T y = Val t /\ rounds_faithfully k n (B2R y) t) ->
  (forall x y t u, is_finite x = true -> is_finite y = true -> B2R x <= B2R y -> T x = Val t -> T y = Val u -> (t <= u)%Z) -> conv_ok n F T.
Proof.
  intros k n F T Hn W HI HF HM. assert (2 ^ 7 <= 2 ^ (n - 1))%Z as P7 by (apply Z.pow_le_mono_r; lia). change (2 ^ 7)%Z with 128%Z in P7.
  assert (forall y a, isf y a -> a <> 0 -> exists t, T y = Val t /\ faithful n (Rlt_bool a 0) (coord k a) t) as FT.
  { intros y a [Fy Vy] Na. destruct (HF y Fy) as (t & Et & [[E _]|[_ R]]); [exfalso; congruence|]. rewrite Vy in R. exists t. auto. }
  pose proof (isf_dmin F W) as Imin. pose proof (isf_dmax F W) as Imax. pose proof dmax_big as DB.
  pose proof (bpow_gt_0 radix2 (-1022)) as P1. pose proof (bpow_gt_0 radix2 1000) as P2.
  assert (bpow radix2 (-1022) <= bpow radix2 (-600)) as B1 by (apply bpow_le; lia). assert (bpow radix2 600 <= bpow radix2 1000) as B2 by (apply bpow_le; lia).
  assert (forall y a, isf y a -> a <> 0 -> Rabs a <= bpow radix2 (-600) -> T y = Val (if Rlt_bool a 0 then -1 else 1)%Z) as SM.
  { intros y a Iy Na Ba. destruct (FT y a Iy Na) as (t & -> & R). f_equal. apply (faith_extreme n _ _ t Hn R). pose proof (coord_small k a Na Ba). lra. }
  assert (forall y a, isf y a -> a <> 0 -> bpow radix2 600 <= Rabs a -> T y = Val (if Rlt_bool a 0 then 1 - 2 ^ (n - 1) else 2 ^ (n - 1) - 1)%Z) as BG.
  { intros y a Iy Na Ba. destruct (FT y a Iy Na) as (t & -> & R). f_equal. apply (faith_extreme n _ _ t Hn R). pose proof (coord_big k a Na Ba). lra. }
  split; auto.
  - intros y. destruct (is_finite y) eqn:Fy.
    + destruct (HF y Fy) as (t & Et & R). exists t. split; [assumption|]. destruct R as [[Z0 ->]|[Nz (R & S & _)]].
      * split; [unfold nar; split; [lia|discriminate]|]. intros _. rewrite Z0. split; [lia|]. split; split; intros; (lia || lra).
      * apply (real_cases n t Hn) in R as [R Nt]. split; [unfold nar; split; [lia|discriminate]|]. intros _. split; [exact R|]. unfold has_sign in S.
        destruct (Rlt_bool_spec (B2R y) 0); split; split; intros; try lia; lra.
    + rewrite (HI y Fy). exists (nar n). split; [reflexivity|]. split; [split; auto|discriminate].
  - split.
    + rewrite (SM _ _ Imin) by (try lra; rewrite Rabs_pos_eq; lra). rewrite Rlt_bool_false by lra. reflexivity.
    + rewrite (SM _ _ (isf_fneg _ _ Imin)) by (try lra; rewrite Rabs_Ropp, Rabs_pos_eq; lra). rewrite Rlt_bool_true by lra. reflexivity.
  - split.
    + rewrite (BG _ _ Imax) by (try lra; rewrite Rabs_pos_eq; lra). rewrite Rlt_bool_false by lra. reflexivity.
    + rewrite (BG _ _ (isf_fneg _ _ Imax)) by (try lra; rewrite Rabs_Ropp, Rabs_pos_eq; lra). rewrite Rlt_bool_true by lra. reflexivity.
Qed.

Lemma lin_conv_ok : forall n F g, linear_from_float n F g -> wide F -> conv_ok n F g.
Proof.
  intros n F g H W. pose proof (std_range n (from_std _ _ _ H)) as Hn. apply (conv_make Linear); try assumption.
  - intros y Fy. destruct (lin_from_specials n F g y H) as (t & Et & _ & _ & ZN & _). rewrite Et. f_equal. apply ZN. assumption.
  - intros y Fy. destruct (lin_from_faithful n F g y H Fy) as (t & Et & _ & R). eauto.
  - intros x y t u Fx Fy Hab Et Eu. exact (lin_from_mono n F g x y t u H Fx Fy Hab Et Eu).
Qed.
Lemma log_conv_ok : forall lm n F g, c99 lm -> monotone lm -> log_from_float lm n F g -> wide F -> conv_ok n F g.
Proof.
  intros lm n F g C Mo H W. assert (8 <= n <= 64)%Z as Hn by (clear W; destruct H; lia). apply (conv_make Logarithmic); try assumption.
  - intros y Fy. exact (log_from_nan lm n F g y H Fy).
  - intros y Fy. exact (log_from_faithful lm n F g y C H Fy).
  - intros x y t u Fx Fy Hab Et Eu. exact (log_from_mono lm n F g x y t u C Mo H Fx Fy Hab Et Eu).
Qed.
