(** Every finite long double has a text. *)
From Coq Require Import ZArith List Bool Ascii String Reals Lia Lra.
From Flocq Require Import Core.Core IEEE754.BinarySingleNaN.
From Verif Require Import CModel FloatModel Libm Spec Calculator CalcSpec TextSpec TextFacts.
Import ListNotations.
Local Open Scope Z_scope.

Definition radix10 : radix := Build_radix 10 eq_refl.
Definition six (m : Z) : list nat := map (fun k => Z.to_nat (m / 10 ^ k mod 10)) [5; 4; 3; 2; 1; 0].
Lemma six_value : forall m, 100000 <= m < 1000000 -> List.length (six m) = 6%nat /\ all_digits (six m) /\ hd 0%nat (six m) <> 0%nat /\ decimal_value (six m) = m.
Proof.
  intros m H. split; [reflexivity|]. unfold six, decimal_value. cbn [map fold_left hd].
  assert (forall k, 0 <= m / 10 ^ k mod 10 < 10) as K by (intros k; apply Z.mod_pos_bound; lia).
  split; [|split].
  - unfold all_digits. repeat (constructor; [pose proof (K 5); pose proof (K 4); pose proof (K 3); pose proof (K 2); pose proof (K 1); pose proof (K 0); lia|]). constructor.
  - change (10 ^ 5) with 100000. assert (1 <= m / 100000 < 10) as D by (split; [apply Z.div_le_lower_bound; lia|apply Z.div_lt_upper_bound; lia]). rewrite Z.mod_small by lia. lia.
  - rewrite !Z2Nat.id by apply K. change (10 ^ 5) with (10 * (10 * (10 * (10 * 10)))). change (10 ^ 4) with (10 * (10 * (10 * 10))). change (10 ^ 3) with (10 * (10 * 10)). change (10 ^ 2) with (10 * 10). change (10 ^ 1) with 10. change (10 ^ 0) with 1. rewrite Z.div_1_r.
    rewrite <- !Z.div_div by lia. pose proof (Z.div_mod m 10 ltac:(lia)) as E0. set (m1 := m / 10) in *. pose proof (Z.div_mod m1 10 ltac:(lia)) as E1. set (m2 := m1 / 10) in *. pose proof (Z.div_mod m2 10 ltac:(lia)) as E2. set (m3 := m2 / 10) in *.
    pose proof (Z.div_mod m3 10 ltac:(lia)) as E3. set (m4 := m3 / 10) in *. pose proof (Z.div_mod m4 10 ltac:(lia)) as E4. set (m5 := m4 / 10) in *.
    assert (m5 mod 10 = m5) as E5. { apply Z.mod_small. pose proof (Z.mod_pos_bound m 10). pose proof (Z.mod_pos_bound m1 10). pose proof (Z.mod_pos_bound m2 10). pose proof (Z.mod_pos_bound m3 10). pose proof (Z.mod_pos_bound m4 10). lia. }
    rewrite E5. lia.
Qed.
Lemma digits_of : forall n : nat, forall N, 0 <= N < Z.of_nat n -> exists ds, all_digits ds /\ decimal_value ds = N /\ (ds <> [] -> hd 0%nat ds <> 0%nat).
Proof.
  induction n as [|n IH]; intros N H; [lia|]. destruct (Z.eq_dec N 0) as [-> |Z0]; [exists []; split; [constructor|split; [reflexivity|intros K; contradiction]]|].
  destruct (IH (N / 10)) as (ds & A & V & L). { split; [apply Z.div_pos; lia|]. pose proof (Z.div_lt N 10). lia. }
  pose proof (Z.mod_pos_bound N 10 ltac:(lia)) as B. pose proof (Z.div_mod N 10 ltac:(lia)) as E. exists (ds ++ [Z.to_nat (N mod 10)]). split; [|split].
  - apply Forall_app. split; [assumption|]. constructor; [lia|constructor].
  - rewrite dv_app, V. cbn [List.length]. change (10 ^ Z.of_nat 1) with 10. assert (decimal_value [Z.to_nat (N mod 10)] = N mod 10) as -> by (unfold decimal_value; cbn [fold_left]; lia). lia.
  - intros _. destruct ds as [|d ds]; [|apply L; discriminate]. cbn [app hd]. change (decimal_value []) with 0 in V. lia.
Qed.
Lemma exponent_exists : forall X, exists es, exponent_digits es X.
Proof.
  intros X. destruct (digits_of (Z.to_nat (Z.abs X + 1)) (Z.abs X) ltac:(lia)) as (ds & A & V & L). destruct ds as [|a [|b [|c ds]]].
  - exists [0; 0]%nat. split; [repeat (constructor; [lia|]); constructor|]. split; [exact V|left; reflexivity].
  - exists [0%nat; a]. split; [constructor; [lia|assumption]|]. split; [rewrite <- V; unfold decimal_value; cbn [fold_left]; lia|left; reflexivity].
  - exists [a; b]. split; [assumption|]. split; [assumption|left; reflexivity].
  - exists (a :: b :: c :: ds). split; [assumption|]. split; [assumption|]. right. split; [cbn [List.length]; lia|apply L; discriminate].
Qed.
Lemma text_exists : forall ds X, exists text, six_digit_text ds X text.
Proof.
  intros ds X. destruct (exponent_exists X) as (es & E). assert (0 <= X < 6 \/ -4 <= X < 0 \/ (X < -4 \/ 6 <= X)) as [H|[H|H]] by lia.
  - eexists. apply text_whole. assumption.
  - eexists. apply text_fraction. assumption.
  - eexists. eapply text_exponent; eassumption.
Qed.
Lemma six_exists : forall x, (0 < x)%R -> exists ds X, six_digits x ds X.
Proof.
  intros x P. destruct (mag radix10 x) as (e1 & He). specialize (He ltac:(lra)). rewrite Rabs_pos_eq in He by lra. set (e := e1 - 1) in *.
  assert (forall k, bpow radix10 k = powerRZ 10 k) as B by (intros k; apply bpow_powerRZ). replace e1 with (e + 1) in He by (unfold e; lia). rewrite !B in He.
  set (m := ZnearestE (x * powerRZ 10 (5 - e))). pose proof (Znearest_half (fun z => negb (Z.even z)) (x * powerRZ 10 (5 - e))) as Hm. fold m in Hm.
  assert (powerRZ 10 (5 - e) * powerRZ 10 (e - 5) = 1)%R as Q by (rewrite <- powerRZ_add by lra; replace (5 - e + (e - 5)) with 0 by lia; reflexivity).
  pose proof (powerRZ_lt 10 (e - 5) ltac:(lra)) as P1. pose proof (powerRZ_lt 10 (5 - e) ltac:(lra)) as P2.
  assert (100000 <= x * powerRZ 10 (5 - e) < 1000000)%R as R.
  { replace 100000%R with (powerRZ 10 e * powerRZ 10 (5 - e))%R by (rewrite <- powerRZ_add by lra; replace (e + (5 - e)) with 5 by lia; simpl; lra). replace 1000000%R with (powerRZ 10 (e + 1) * powerRZ 10 (5 - e))%R by (rewrite <- powerRZ_add by lra; replace (e + 1 + (5 - e)) with 6 by lia; simpl; lra).
    split; [apply Rmult_le_compat_r; lra|apply Rmult_lt_compat_r; lra]. }
  apply Rabs_le_inv in Hm as Hm2. assert (100000 <= m <= 1000000) as Rm.
  { split; [apply Z.lt_pred_le, lt_IZR|apply Z.lt_succ_r, lt_IZR]; [unfold Z.pred|unfold Z.succ]; rewrite plus_IZR; lra. }
  assert (Rabs (x - IZR m * powerRZ 10 (e - 5)) <= powerRZ 10 (e - 5) / 2)%R as D.
  { replace (x - IZR m * powerRZ 10 (e - 5))%R with ((x * powerRZ 10 (5 - e) - IZR m) * powerRZ 10 (e - 5))%R by (rewrite Rmult_minus_distr_r, Rmult_assoc, Q; ring). rewrite Rabs_mult, (Rabs_pos_eq (powerRZ 10 (e - 5))) by lra.
    apply Rle_trans with (/ 2 * powerRZ 10 (e - 5))%R; [apply Rmult_le_compat_r; lra|lra]. }
  destruct (Z.eq_dec m 1000000) as [E|N].
  - exists [1; 0; 0; 0; 0; 0]%nat, (e + 1). split; [reflexivity|]. split; [repeat (constructor; [lia|]); constructor|]. split; [discriminate|]. exists e, m. split; [assumption|]. split; [assumption|]. right. split; [assumption|]. split; reflexivity.
  - destruct (six_value m ltac:(lia)) as (V1 & V2 & V3 & V4). exists (six m), e. split; [assumption|]. split; [assumption|]. split; [assumption|]. exists e, m. split; [assumption|]. split; [assumption|]. left. auto.
Qed.
Lemma percent_exists : forall x : flt f80, exists text, percent_Lg x text.
Proof.
  intros x. destruct (Req_dec (B2R x) 0) as [Z|N].
  - eexists. exists (str "0"). split; [reflexivity|]. left. auto.
  - destruct (six_exists (Rabs (B2R x)) (Rabs_pos_lt _ N)) as (ds & X & D). destruct (text_exists ds X) as (u & T). eexists. exists u. split; [reflexivity|]. right. exists ds, X. auto.
Qed.
Lemma numeral_exists : forall z, exists text, numeral text z.
Proof.
  assert (forall N, 0 <= N -> exists ds, digits ds /\ decimal_value ds = N) as K.
  { intros N H. destruct (digits_of (Z.to_nat (N + 1)) N ltac:(lia)) as (ds & A & V & L). destruct ds as [|d ds].
    - exists [0%nat]. split; [split; [constructor; [lia|constructor]|left; reflexivity]|exact V].
    - exists (d :: ds). split; [split; [exact A|right; exists d, ds; split; [reflexivity|apply L; discriminate]]|exact V]. }
  intros z. destruct (Z.le_gt_cases 0 z) as [H|H].
  - destruct (K z H) as (ds & D & <-). eexists. apply numeral_positive, D.
  - destruct (K (- z) ltac:(lia)) as (ds & D & V). replace z with (- decimal_value ds) by lia. eexists. apply numeral_negative, D.
Qed.
Lemma printed_exists : forall p, exists text, printed_text p text.
Proof. intros [z| |x]; [apply numeral_exists|eexists; reflexivity|apply percent_exists]. Qed.
