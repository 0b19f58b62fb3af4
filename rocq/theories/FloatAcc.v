(** Error propagation through double and long double computations, including
    over- and underflow. *)
From Coq Require Import ZArith Reals Bool Lia Lra Psatz.
From Flocq Require Import Core.Core Relative IEEE754.BinarySingleNaN.
From Verif Require Import CModel FloatModel Libm LibmSpec Spec FloatFacts Machine LinArith.
Local Open Scope R_scope.

Definition wide (F : fmt) : Prop := F = f64 \/ F = f80.
Lemma wide_exp : forall F, wide F -> (femax F = 1024 /\ fprec F = 53 \/ femax F = 16384 /\ fprec F = 64)%Z.
Proof. intros F [-> | ->]; [left|right]; split; reflexivity. Qed.

(** the relative error of y as an approximation of R *)
Definition acc (e : R) (F : fmt) (R_ : R) (y : flt F) : Prop := exists r, isf y r /\ Rabs (r - R_) <= e * Rabs R_.
(** R is in the range where over- and underflow are far away *)
Definition win (h : Z) (R_ : R) : Prop := bpow radix2 (- h) <= Rabs R_ <= bpow radix2 h.

Definition near (e : R) (h : Z) (F : fmt) (R_ : R) (y : flt F) : Prop :=
  (R_ = 0 \/ win 900 R_ -> acc e F R_ y) /\
  (R_ <> 0 -> Rabs R_ < bpow radix2 (-900) -> exists r, isf y r /\ Rabs r <= bpow radix2 (- h) /\ 0 <= r * R_) /\
  (bpow radix2 900 < Rabs R_ -> y = B754_infinity (Rlt_bool R_ 0) \/ exists r, isf y r /\ bpow radix2 h <= Rabs r /\ 0 < r * R_).

Lemma sign_same : forall F (y : flt F) R_, is_finite y = true -> Bsign y = Rlt_bool R_ 0 -> 0 <= B2R y * R_.
Proof.
  intros F y R_ Fy H. destruct y as [s|s| |s m e He]; try discriminate; [simpl; lra|]. rewrite B2R_F2R. pose proof (bpow_gt_0 radix2 e).
  simpl in H. subst s. destruct (Rlt_bool_spec R_ 0); cbn [cond_Zopp].
  - assert (IZR (- Z.pos m) < 0) by (apply IZR_lt; lia). assert (0 < - IZR (- Z.pos m) * bpow radix2 e) by (apply Rmult_lt_0_compat; lra). nra.
  - assert (0 < IZR (Z.pos m)) by (apply IZR_lt; lia). apply Rmult_le_pos; [|assumption]. left. apply Rmult_lt_0_compat; assumption.
Qed.

Lemma close_near : forall k F R_ (y : flt F), wide F -> (k <= 3)%Z -> close k F R_ y -> near (bpow radix2 (k - fprec F)) 890 F R_ y.
Proof.
  intros k F R_ y W Hk (N & Z0 & S & Cf & Ca & Cs & Cl). pose proof (wide_exp F W) as HW.
  set (e := bpow radix2 (k - fprec F)) in *.
  assert (0 < e <= / 1024) as He.
  { split; [apply bpow_gt_0|]. replace (/ 1024) with (bpow radix2 (-10)) by (simpl; lra). apply bpow_le. lia. }
  assert (forall a b, (a <= b)%Z -> bpow radix2 a <= bpow radix2 b) as B by (intros; apply bpow_le; assumption).
  pose proof (bpow_gt_0 radix2 (-900)) as P900. pose proof (Rabs_pos R_) as PR.
  assert (bpow radix2 (-890) = 1024 * bpow radix2 (-900)) as E8. { change (-890)%Z with (10 + -900)%Z. rewrite bpow_plus. change (bpow radix2 10) with 1024. reflexivity. }
  assert (bpow radix2 900 = 1024 * bpow radix2 890) as E9. { change 900%Z with (10 + 890)%Z. rewrite bpow_plus. change (bpow radix2 10) with 1024. reflexivity. }
  pose proof (bpow_gt_0 radix2 890) as P890.
  split; [|split].
  - intros [-> | H].
    + destruct (Z0 eq_refl) as [F0 V0]. exists 0. split; [split; assumption|]. rewrite Rminus_0_r, Rabs_R0. lra.
    + assert (bpow radix2 (3 - femax F) <= Rabs R_ <= bpow radix2 (femax F - 1)) as H1.
      { pose proof (B (3 - femax F) (-900) ltac:(lia))%Z. pose proof (B 900 (femax F - 1) ltac:(lia))%Z. unfold win in H. change (- (900))%Z with (-900)%Z in H. lra. }
      exists (B2R y). split; [split; [apply Cf; apply H1|reflexivity]|]. apply Ca. assumption.
  - intros NR HR. pose proof (B (-900) (femax F - 1) ltac:(lia))%Z as B1.
    specialize (Cf ltac:(lra)). exists (B2R y). split; [split; [assumption|reflexivity]|]. split; [|apply sign_same; [assumption|apply S; assumption]].
    change (- (890))%Z with (-890)%Z.
    destruct (Rlt_or_le (Rabs R_) (bpow radix2 (3 - femax F))) as [K|K].
    + eapply Rle_trans; [apply Cs; assumption|]. apply B. lia.
    + specialize (Ca ltac:(lra)). replace (B2R y) with ((B2R y - R_) + R_) by ring. eapply Rle_trans; [apply Rabs_triang|].
      assert (e * Rabs R_ <= 1 * Rabs R_) by (apply Rmult_le_compat_r; lra). lra.
  - intros HR. assert (R_ <> 0) as NR by (intros ->; rewrite Rabs_R0 in HR; lra).
    destruct (is_finite y) eqn:Ef.
    + right. exists (B2R y). split; [split; [assumption|reflexivity]|].
      assert (bpow radix2 890 <= Rabs (B2R y)) as K.
      { destruct (Rlt_or_le (bpow radix2 (femax F - 1)) (Rabs R_)) as [K|K].
        - eapply Rle_trans; [|apply Cl; [assumption|reflexivity]]. apply B. lia.
        - pose proof (B (3 - femax F) 900 ltac:(lia))%Z. specialize (Ca ltac:(lra)).
          assert (Rabs R_ <= Rabs (B2R y - R_) + Rabs (B2R y)).
          { replace R_ with (- (B2R y - R_) + B2R y) at 1 by ring. eapply Rle_trans; [apply Rabs_triang|]. rewrite Rabs_Ropp. lra. }
          assert (e * Rabs R_ <= / 1024 * Rabs R_) by (apply Rmult_le_compat_r; lra). lra. }
      split; [assumption|]. pose proof (sign_same F y R_ Ef (S NR)).
      assert (B2R y <> 0) by (intros E; rewrite E, Rabs_R0 in K; lra). assert (B2R y * R_ <> 0) by (apply Rmult_integral_contrapositive; split; assumption). lra.
    + left. specialize (S NR). destruct y as [s|s| |s m ee Hee]; try discriminate. simpl in S. rewrite S. reflexivity.
Qed.

(** ** Rounding *)
Lemma RF_rel9 : forall F x, wide F -> bpow radix2 (-960) <= Rabs x -> Rabs (RF F x - x) <= bpow radix2 (- fprec F) * Rabs x.
Proof.
  intros F x W H.
  eapply Rle_trans; [apply (relative_error_N_FLT radix2 (femin F) (fprec F) (fprec_gt_0 F) (fun x => negb (Z.even x)))|].
  - eapply Rle_trans; [|exact H]. apply bpow_le. destruct W as [-> | ->]; vm_compute; discriminate.
  - apply Rmult_le_compat_r; [apply Rabs_pos|]. replace (- fprec F + 1)%Z with (1 + - fprec F)%Z by lia. rewrite bpow_plus. change (bpow radix2 1) with 2. lra.
Qed.
Lemma RF_small : forall F x, wide F -> Rabs x <= bpow radix2 960 -> Rabs (RF F x) < bpow radix2 (femax F).
Proof. intros F x W H. apply (RF_lt_emax F x 960); [|assumption]. destruct W as [-> | ->]; vm_compute; split; discriminate || reflexivity. Qed.
Lemma prec_small : forall F, wide F -> 0 < bpow radix2 (- fprec F) <= / 1024.
Proof. intros F W. split; [apply bpow_gt_0|]. replace (/ 1024) with (bpow radix2 (-10)) by (simpl; lra). apply bpow_le. destruct W as [-> | ->]; simpl; lia. Qed.

(** rounding a value with a given error *)
Lemma acc_round : forall e e' F z R_, wide F -> Rabs (z - R_) <= e * Rabs R_ -> 0 <= e <= 1 / 4 -> R_ = 0 \/ win 950 R_ ->
  e + bpow radix2 (- fprec F) * (1 + e) <= e' -> Rabs (RF F z - R_) <= e' * Rabs R_ /\ Rabs (RF F z) < bpow radix2 (femax F).
Proof.
  intros e e' F z R_ W H He [-> | HR] He'.
  - rewrite Rabs_R0, Rmult_0_r in *. rewrite Rminus_0_r in H. assert (z = 0) as -> by (destruct (Req_dec z 0) as [E0|E0]; [exact E0|apply Rabs_pos_lt in E0; lra]).
    rewrite RF_0, Rminus_0_r, Rabs_R0. split; [lra|apply bpow_gt_0].
  - destruct HR as [R1 R2]. pose proof (bpow_gt_0 radix2 (- (950))) as P.
    assert (Rabs z <= 2 * Rabs R_ /\ Rabs R_ / 2 <= Rabs z <= (1 + e) * Rabs R_) as [Z1 [Z2 Z3]].
    { assert (e * Rabs R_ <= 1 / 4 * Rabs R_) by (apply Rmult_le_compat_r; lra).
      assert (Rabs z <= Rabs (z - R_) + Rabs R_) by (replace z with ((z - R_) + R_) at 1 by ring; apply Rabs_triang).
      assert (Rabs R_ <= Rabs (z - R_) + Rabs z) by (replace R_ with (- (z - R_) + z) at 1 by ring; eapply Rle_trans; [apply Rabs_triang|rewrite Rabs_Ropp; lra]). lra. }
    pose proof (prec_small F W) as Pp.
    assert (bpow radix2 (- (950)) = 1024 * bpow radix2 (-960)) as E8. { change (- (950))%Z with (10 + -960)%Z. rewrite bpow_plus. change (bpow radix2 10) with 1024. reflexivity. }
    assert (bpow radix2 960 = 1024 * bpow radix2 950) as E9. { change 960%Z with (10 + 950)%Z. rewrite bpow_plus. change (bpow radix2 10) with 1024. reflexivity. }
    pose proof (bpow_gt_0 radix2 (-960)). pose proof (bpow_gt_0 radix2 950).
    split; [|apply RF_small; [assumption|lra]].
    pose proof (RF_rel9 F z W ltac:(lra)) as K.
    replace (RF F z - R_) with ((RF F z - z) + (z - R_)) by ring. eapply Rle_trans; [apply Rabs_triang|].
    assert (bpow radix2 (- fprec F) * Rabs z <= bpow radix2 (- fprec F) * ((1 + e) * Rabs R_)) by (apply Rmult_le_compat_l; lra).
    assert (0 < Rabs R_) by lra. nra.
Qed.

Lemma acc_weaken : forall e e' F R_ (y : flt F), acc e F R_ y -> e <= e' -> acc e' F R_ y.
Proof. intros e e' F R_ y (r & H1 & H2) H. exists r. split; [assumption|]. eapply Rle_trans; [exact H2|]. apply Rmult_le_compat_r; [apply Rabs_pos|assumption]. Qed.
Lemma near_weaken : forall e h e' h' F R_ (y : flt F), near e h F R_ y -> e <= e' -> (h' <= h)%Z -> near e' h' F R_ y.
Proof.
  intros e h e' h' F R_ y (A & B & C) He Hh. split; [|split].
  - intros H. eapply acc_weaken; [apply A; assumption|assumption].
  - intros H1 H2. destruct (B H1 H2) as (r & K1 & K2 & K3). exists r. split; [assumption|]. split; [|assumption]. eapply Rle_trans; [exact K2|]. apply bpow_le. lia.
  - intros H. destruct (C H) as [K|(r & K1 & K2 & K3)]; [left; assumption|right]. exists r. split; [assumption|]. split; [|assumption]. eapply Rle_trans; [|exact K2]. apply bpow_le. lia.
Qed.
Lemma acc_near : forall e h F R_ (y : flt F), acc e F R_ y -> R_ = 0 \/ win 900 R_ -> near e h F R_ y.
Proof.
  intros e h F R_ y A H. split; [intros _; assumption|]. split.
  - intros N K. destruct H as [-> | [H _]]; [contradiction|]. change (- (900))%Z with (-900)%Z in H. lra.
  - intros K. destruct H as [-> | [_ H]]; [|lra]. rewrite Rabs_R0 in K. pose proof (bpow_gt_0 radix2 900). lra.
Qed.
Lemma near_acc : forall e h F R_ (y : flt F), near e h F R_ y -> R_ = 0 \/ win 900 R_ -> acc e F R_ y.
Proof. intros e h F R_ y (A & _) H. apply A; assumption. Qed.

Lemma win_weaken : forall h h' R_, win h R_ -> (h <= h')%Z -> win h' R_.
Proof. intros h h' R_ [H1 H2] H. split; [eapply Rle_trans; [|exact H1]|eapply Rle_trans; [exact H2|]]; apply bpow_le; lia. Qed.
Lemma win_nz : forall h R_, win h R_ -> R_ <> 0.
Proof. intros h R_ [H _] ->. rewrite Rabs_R0 in H. pose proof (bpow_gt_0 radix2 (- h)). lra. Qed.
Lemma win_mul : forall h h' a b, win h a -> win h' b -> win (h + h') (a * b).
Proof.
  intros h h' a b [A1 A2] [B1 B2]. unfold win. rewrite Rabs_mult. replace (- (h + h'))%Z with (- h + - h')%Z by lia. rewrite !bpow_plus.
  split; apply Rmult_le_compat; assumption || apply bpow_ge_0 || apply Rabs_pos.
Qed.
Lemma win_inv : forall h a, win h a -> win h (/ a).
Proof.
  intros h a [A1 A2]. pose proof (bpow_gt_0 radix2 (- h)) as P. pose proof (bpow_gt_0 radix2 h). assert (a <> 0) by (intros ->; rewrite Rabs_R0 in A1; lra).
  unfold win. rewrite Rabs_inv. split.
  - rewrite bpow_opp. apply Rinv_le_contravar; lra.
  - rewrite <- (Z.opp_involutive h), bpow_opp. apply Rinv_le_contravar; assumption.
Qed.
Lemma win_div : forall h h' a b, win h a -> win h' b -> win (h + h') (a / b).
Proof. intros. apply win_mul; [assumption|apply win_inv; assumption]. Qed.

(** relative error of products and quotients *)
Lemma rel_mul : forall d e a b a' b', Rabs (a' - a) <= d * Rabs a -> Rabs (b' - b) <= e * Rabs b -> 0 <= d -> 0 <= e ->
  Rabs (a' * b' - a * b) <= (d + e + d * e) * Rabs (a * b).
Proof.
  intros d e a b a' b' Ha Hb Hd He. replace (a' * b' - a * b) with ((a' - a) * b + a * (b' - b) + (a' - a) * (b' - b)) by ring.
  eapply Rle_trans; [apply Rabs_triang|]. eapply Rle_trans; [apply Rplus_le_compat_r; apply Rabs_triang|]. rewrite !Rabs_mult.
  pose proof (Rabs_pos a). pose proof (Rabs_pos b). pose proof (Rabs_pos (a' - a)). pose proof (Rabs_pos (b' - b)).
  assert (Rabs (a' - a) * Rabs b <= d * Rabs a * Rabs b) by (apply Rmult_le_compat_r; assumption).
  assert (Rabs a * Rabs (b' - b) <= Rabs a * (e * Rabs b)) by (apply Rmult_le_compat_l; assumption).
  assert (Rabs (a' - a) * Rabs (b' - b) <= d * Rabs a * (e * Rabs b)) by (apply Rmult_le_compat; assumption). nra.
Qed.
Lemma rel_inv : forall e b b', Rabs (b' - b) <= e * Rabs b -> 0 <= e <= 1 / 2 -> b <> 0 -> b' <> 0 /\ Rabs (/ b' - / b) <= 2 * e * Rabs (/ b).
Proof.
  intros e b b' H He Nb. assert (0 < Rabs b) as P by (apply Rabs_pos_lt; assumption).
  assert (Rabs b / 2 <= Rabs b') as Hb.
  { assert (Rabs b <= Rabs (b' - b) + Rabs b') by (replace b with (- (b' - b) + b') at 1 by ring; eapply Rle_trans; [apply Rabs_triang|rewrite Rabs_Ropp; lra]). nra. }
  assert (b' <> 0) as N by (intros ->; rewrite Rabs_R0 in Hb; lra). split; [assumption|].
  replace (/ b' - / b) with (- (b' - b) * / b' * / b) by (field; split; assumption). rewrite !Rabs_mult, Rabs_Ropp, !Rabs_inv.
  apply Rmult_le_compat_r; [left; apply Rinv_0_lt_compat; assumption|].
  assert (0 < Rabs b') by lra. apply Rmult_le_reg_r with (Rabs b'); [assumption|]. rewrite Rmult_assoc, Rinv_l by lra.
  nra.
Qed.

Lemma acc_mul : forall d e e' F a b (x y : flt F), wide F -> acc d F a x -> acc e F b y -> 0 <= d <= / 64 -> 0 <= e <= / 64 ->
  a * b = 0 \/ win 950 (a * b) -> d + e + d * e + 2 * bpow radix2 (- fprec F) <= e' -> acc e' F (a * b) (fmul x y).
Proof.
  intros d e e' F a b x y W (a' & Ix & Ha) (b' & Iy & Hb) Hd He HR He'. pose proof (prec_small F W) as Pp.
  pose proof (rel_mul _ _ _ _ _ _ Ha Hb ltac:(lra) ltac:(lra)) as K. assert (0 <= d * e <= / 64) by nra.
  destruct (acc_round _ e' F _ _ W K ltac:(lra) HR ltac:(nra)) as [A B].
  exists (RF F (a' * b')). split; [apply isf_fmul; assumption|assumption].
Qed.
Lemma acc_div : forall d e e' F a b (x y : flt F), wide F -> acc d F a x -> acc e F b y -> 0 <= d <= / 64 -> 0 <= e <= / 64 ->
  b <> 0 -> a = 0 \/ win 950 (a / b) -> d + 2 * e + 2 * d * e + 2 * bpow radix2 (- fprec F) <= e' -> acc e' F (a / b) (fdiv x y).
Proof.
  intros d e e' F a b x y W (a' & Ix & Ha) (b' & Iy & Hb) Hd He Nb HR He'. pose proof (prec_small F W) as Pp.
  destruct (rel_inv _ _ _ Hb ltac:(lra) Nb) as [Nb' Hi].
  pose proof (rel_mul _ _ _ _ _ _ Ha Hi ltac:(lra) ltac:(lra)) as K. change (a * / b) with (a / b) in K. assert (0 <= d * e <= / 64) by nra.
  assert (a / b = 0 \/ win 950 (a / b)) as HR' by (destruct HR as [-> | HR]; [left; unfold Rdiv; ring|right; assumption]).
  destruct (acc_round _ e' F _ _ W K ltac:(lra) HR' ltac:(nra)) as [A B].
  exists (RF F (a' / b')). split; [apply isf_fdiv; assumption|assumption].
Qed.

(** ** Conversions *)
Lemma fcast_over : forall f g (x : flt f) a, isf x a -> bpow radix2 (femax g) <= Rabs (RF g a) -> fcast g x = B754_infinity (Rlt_bool a 0).
Proof.
  intros f g x a [Fx <-] Hb. destruct x as [s|s| |s m e He]; try discriminate.
  - exfalso. simpl in Hb. rewrite RF_0, Rabs_R0 in Hb. pose proof (bpow_gt_0 radix2 (femax g)). lra.
  - unfold fcast. pose proof (binary_normalize_correct (fprec g) (femax g) _ _ mode_NE (cond_Zopp s (Zpos m)) e s) as H.
    cbv zeta in H. rewrite Rlt_bool_false in H by exact Hb. 
    match goal with |- ?y = _ => set (yy := y) in * end.
    change (B2SF yy = SpecFloat.S754_infinity (Rlt_bool (F2R (Float radix2 (cond_Zopp s (Zpos m)) e)) 0)) in H.
    destruct yy; try discriminate. injection H as ->. reflexivity.
Qed.
Lemma fcast_inf : forall f g s, fcast g (B754_infinity s : flt f) = B754_infinity s.
Proof. reflexivity. Qed.

Lemma sign_mul : forall a b, 0 < a * b -> Rlt_bool a 0 = Rlt_bool b 0.
Proof. intros a b H. destruct (Rlt_bool_spec a 0), (Rlt_bool_spec b 0); try reflexivity; nra. Qed.

Lemma RF_ge : forall F r h, wide F -> (-900 <= h <= 900)%Z -> bpow radix2 h <= Rabs r -> bpow radix2 h <= Rabs (RF F r).
Proof. intros F r h W Hh H. apply abs_round_ge_generic; [unfold fexpo; apply fexp_correct; apply fprec_gt_0|apply valid_rnd_N|apply FF_bpow; destruct W as [-> | ->]; unfold femin; simpl; lia|assumption]. Qed.
Lemma RF_le : forall F r h, wide F -> (-900 <= h <= 900)%Z -> Rabs r <= bpow radix2 h -> Rabs (RF F r) <= bpow radix2 h.
Proof. intros F r h W Hh H. apply RF_abs_le; [apply FF_bpow; destruct W as [-> | ->]; unfold femin; simpl; lia|assumption]. Qed.
Lemma RF_sign : forall F r b, 0 <= r * b -> 0 <= RF F r * b.
Proof.
  intros F r b H. destruct (Rtotal_order b 0) as [K|[-> | K]].
  - assert (r <= 0) by nra. pose proof (RF_mono F r 0 ltac:(lra)). rewrite RF_0 in *. nra.
  - lra.
  - assert (0 <= r) by nra. pose proof (RF_mono F 0 r ltac:(lra)). rewrite RF_0 in *. nra.
Qed.
Lemma RF_sign_lt : forall F r b h, wide F -> (-900 <= h <= 900)%Z -> bpow radix2 h <= Rabs r -> 0 < r * b -> 0 < RF F r * b.
Proof.
  intros F r b h W Hh H1 H2. pose proof (RF_sign F r b ltac:(lra)). pose proof (RF_ge F r h W Hh H1) as K. pose proof (bpow_gt_0 radix2 h).
  assert (RF F r <> 0) by (intros E; rewrite E, Rabs_R0 in K; lra). assert (b <> 0) by (intros ->; lra).
  assert (RF F r * b <> 0) by (apply Rmult_integral_contrapositive; split; assumption). lra.
Qed.

Lemma near_cast : forall e h e' F G R_ (y : flt F), wide F -> wide G -> near e h F R_ y -> 0 <= e <= / 64 -> (0 <= h <= 900)%Z ->
  e + 2 * bpow radix2 (- fprec G) <= e' -> near e' h G R_ (fcast G y).
Proof.
  intros e h e' F G R_ y WF WG (A & B & C) He Hh He'. pose proof (prec_small G WG) as Pp. split; [|split].
  - intros H. destruct (A H) as (r & Ir & Hr). assert (R_ = 0 \/ win 950 R_) as H' by (destruct H; [left; assumption|right; eapply win_weaken; [eassumption|lia]]).
    destruct (acc_round e e' G _ _ WG Hr ltac:(lra) H' ltac:(nra)) as [K1 K2]. exists (RF G r). split; [apply isf_fcast; assumption|assumption].
  - intros H1 H2. destruct (B H1 H2) as (r & Ir & Hr & Hs). exists (RF G r). split; [|split].
    + apply isf_fcast; [assumption|]. apply RF_small; [assumption|]. eapply Rle_trans; [exact Hr|]. apply bpow_le. lia.
    + apply RF_le; [assumption|lia|assumption].
    + apply RF_sign. assumption.
  - intros H. destruct (C H) as [-> | (r & Ir & Hr & Hs)]; [left; reflexivity|].
    destruct (Rlt_or_le (Rabs (RF G r)) (bpow radix2 (femax G))) as [K|K].
    + right. exists (RF G r). split; [apply isf_fcast; assumption|]. split; [apply RF_ge; [assumption|lia|assumption]|]. apply RF_sign_lt with h; [assumption|lia|assumption|assumption].
    + left. rewrite (fcast_over _ _ _ _ Ir K). f_equal. apply sign_mul. assumption.
Qed.

Lemma isf_one : forall F, isf (fint F 1) 1.
Proof. intros F. apply isf_fint. pose proof (fmt_pos F). change (Z.abs 1) with (2 ^ 0)%Z. apply Z.pow_le_mono_r; lia. Qed.
Lemma acc_isf : forall F (x : flt F) a e, isf x a -> 0 <= e -> acc e F a x.
Proof. intros F x a e H He. exists a. split; [assumption|]. replace (a - a) with 0 by ring. rewrite Rabs_R0. pose proof (Rabs_pos a). nra. Qed.

Lemma fdiv_inf : forall F (x : flt F) a s, isf x a -> isf (fdiv x (B754_infinity s)) 0.
Proof. intros F [s'|s'| |s' m e He] a s [Fx _]; try discriminate; split; reflexivity. Qed.

Lemma near_inv : forall e h e' F R_ (y : flt F), wide F -> near e h F R_ y -> 0 <= e <= / 64 -> (0 <= h <= 900)%Z ->
  bpow radix2 (-900) <= Rabs R_ -> 2 * e + 2 * bpow radix2 (- fprec F) <= e' -> near e' h F (/ R_) (fdiv (fint F 1) y).
Proof.
  intros e h e' F R_ y W (A & _ & C) He Hh HR He'. pose proof (bpow_gt_0 radix2 (-900)) as P9.
  assert (R_ <> 0) as N by (intros ->; rewrite Rabs_R0 in HR; lra).
  destruct (Rle_or_lt (Rabs R_) (bpow radix2 900)) as [H|H].
  - assert (win 900 R_) as Wn by (split; assumption). apply acc_near; [|right; apply win_inv; assumption].
    replace (/ R_) with (1 / R_) by (unfold Rdiv; ring). apply (acc_div 0 e); try assumption; try lra.
    + apply acc_isf; [apply isf_one|lra].
    + apply A. right. assumption.
    + right. replace (1 / R_) with (/ R_) by (unfold Rdiv; ring). eapply win_weaken; [apply win_inv; eassumption|lia].
  - assert (Rabs (/ R_) < bpow radix2 (-900)) as HI.
    { rewrite Rabs_inv. change (-900)%Z with (- (900))%Z. rewrite bpow_opp. apply Rinv_lt_contravar; [|assumption]. apply Rmult_lt_0_compat; [apply bpow_gt_0|lra]. }
    assert (/ R_ <> 0) as NI by (apply Rinv_neq_0_compat; assumption).
    split; [|split].
    + intros [E|[E _]]; [contradiction|]. change (- (900))%Z with (-900)%Z in E. lra.
    + intros _ _. destruct (C H) as [-> | (r & Ir & Hr & Hs)].
      * exists 0. split; [eapply fdiv_inf; apply isf_one|]. split; [rewrite Rabs_R0; apply bpow_ge_0|lra].
      * pose proof (bpow_gt_0 radix2 h). assert (r <> 0) by (intros ->; rewrite Rabs_R0 in Hr; lra).
        assert (Rabs (1 / r) <= bpow radix2 (- h)) as Hi.
        { unfold Rdiv. rewrite Rmult_1_l, Rabs_inv, bpow_opp. apply Rinv_le_contravar; assumption. }
        exists (RF F (1 / r)). split; [|split].
        -- apply isf_fdiv; [apply isf_one|assumption|assumption|]. apply RF_small; [assumption|]. eapply Rle_trans; [exact Hi|]. apply bpow_le. lia.
        -- apply RF_le; [assumption|lia|assumption].
        -- apply RF_sign. unfold Rdiv. rewrite Rmult_1_l, <- Rinv_mult. left. apply Rinv_0_lt_compat. assumption.
    + intros K. exfalso. pose proof (bpow_lt radix2 (-900) 900 ltac:(lia)). lra.
Qed.
