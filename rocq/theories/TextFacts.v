(** Printed texts are decimal numbers. *)
From Coq Require Import ZArith List Bool Ascii String Reals Lia Lra.
From Flocq Require Import Core.Core IEEE754.BinarySingleNaN.
From Verif Require Import CModel FloatModel Libm Spec Calculator CalcSpec CalcLiteral CalcNumeral TextSpec.
Import ListNotations.
Local Open Scope Z_scope.

(** ** Digits *)
Lemma fold_app : forall bs acc, fold_left (fun a d => 10 * a + Z.of_nat d) bs acc = acc * 10 ^ Z.of_nat (List.length bs) + decimal_value bs.
Proof.
  unfold decimal_value. induction bs as [|d bs IH]; intros acc; [cbn [fold_left List.length]; change (10 ^ Z.of_nat 0) with 1; lia|].
  cbn [fold_left]. rewrite IH, (IH (10 * 0 + Z.of_nat d)). cbn [List.length]. rewrite Nat2Z.inj_succ, Z.pow_succ_r by lia. ring.
Qed.
Lemma dv_app : forall a b, decimal_value (a ++ b) = decimal_value a * 10 ^ Z.of_nat (List.length b) + decimal_value b.
Proof. intros a b. unfold decimal_value at 1. rewrite fold_left_app. apply fold_app. Qed.
Lemma dv_zeros : forall k, decimal_value (repeat 0%nat k) = 0.
Proof. induction k as [|k IH]; [reflexivity|]. unfold decimal_value in *. cbn [repeat fold_left]. exact IH. Qed.
Lemma dv_nonneg : forall ds, 0 <= decimal_value ds.
Proof. intros ds. apply value_nonneg. lia. Qed.
Lemma dv_bound : forall ds, all_digits ds -> decimal_value ds < 10 ^ Z.of_nat (List.length ds).
Proof.
  induction ds as [|d ds IH] using rev_ind; intros A; [vm_compute; reflexivity|]. apply Forall_app in A as [A1 A2]. inversion A2 as [|? ? Hd _]; subst. specialize (IH A1).
  rewrite dv_app, app_length. cbn [List.length]. rewrite Nat2Z.inj_add. change (Z.of_nat 1) with 1. rewrite Z.pow_add_r by lia. change (10 ^ 1) with 10.
  assert (decimal_value [d] = Z.of_nat d) as -> by (unfold decimal_value; cbn [fold_left]; lia). nia.
Qed.
Lemma strip_zeros : forall ds, exists k, ds = strip ds ++ repeat 0%nat k.
Proof.
  induction ds as [|d ds [k IH]]; [exists 0%nat; reflexivity|]. cbn [strip]. destruct (strip ds) as [|s ss].
  - destruct d; [exists (S k); cbn [repeat app]; f_equal; exact IH|exists k; cbn [app]; f_equal; exact IH].
  - exists k. cbn [app]. f_equal. exact IH.
Qed.
Lemma strip_digits : forall ds, all_digits ds -> all_digits (strip ds).
Proof. intros ds H. destruct (strip_zeros ds) as [k E]. unfold all_digits in *. rewrite E in H. apply Forall_app in H. apply H. Qed.
(** the number a.b written with digits is not changed by stripping *)
Lemma strip_value : forall a ds, (IZR (decimal_value (a ++ ds)) * powerRZ 10 (- Z.of_nat (List.length ds)) = IZR (decimal_value (a ++ strip ds)) * powerRZ 10 (- Z.of_nat (List.length (strip ds))))%R.
Proof.
  intros a ds. destruct (strip_zeros ds) as [k E]. set (s := strip ds) in *. clearbody s. subst ds. rewrite app_assoc, (dv_app (a ++ s)), dv_zeros, Z.add_0_r, repeat_length, app_length, repeat_length.
  rewrite mult_IZR. rewrite Nat2Z.inj_add. replace (- (Z.of_nat (List.length s) + Z.of_nat k)) with (- Z.of_nat (List.length s) + - Z.of_nat k) by lia. rewrite powerRZ_add by lra.
  assert (IZR (10 ^ Z.of_nat k) * powerRZ 10 (- Z.of_nat k) = 1)%R as K.
  { rewrite <- (pow_IZR 10 k), pow_powerRZ, <- powerRZ_add by lra. replace (Z.of_nat k + - Z.of_nat k) with 0 by lia. reflexivity. }
  transitivity (IZR (decimal_value (a ++ s)) * powerRZ 10 (- Z.of_nat (List.length s)) * (IZR (10 ^ Z.of_nat k) * powerRZ 10 (- Z.of_nat k)))%R; [ring|rewrite K; ring].
Qed.
(** ** The shape of %Lg *)
(** a text without sign: whole digits, fraction, exponent *)
Record shape (ds : list nat) (X : Z) (text : bytes) := {
  sh_whole : list nat; sh_fraction : list nat; sh_exponent : bytes; sh_E : Z;
  sh_text : text = map decimal_digit sh_whole ++ (match sh_fraction with [] => [] | _ => "."%char :: map decimal_digit sh_fraction end) ++ sh_exponent;
  sh_digits : digits sh_whole;
  sh_fdigits : all_digits sh_fraction;
  sh_exp : (sh_exponent = [] /\ sh_E = 0) \/ (exists s b es, sh_exponent = "e"%char :: s ++ map decimal_digit es /\ sign_text s b /\ all_digits es /\ es <> [] /\ sh_E = if b then - decimal_value es else decimal_value es);
  sh_length : (List.length sh_whole <= 6)%nat;
  sh_zero : sh_whole = [0%nat] -> sh_fraction <> [];
  sh_value : (IZR (decimal_value (sh_whole ++ sh_fraction)) * powerRZ 10 (sh_E - Z.of_nat (List.length sh_fraction)) = IZR (decimal_value ds) * powerRZ 10 (X - 5))%R
}.
Lemma strip_nonempty : forall a ds, hd 0%nat ds <> 0%nat -> strip (a ++ ds) <> [].
Proof.
  intros a ds H E. destruct (strip_zeros (a ++ ds)) as [k K]. rewrite E in K. cbn [app] in K. assert (Forall (fun d => d = 0%nat) (a ++ ds)) as F by (rewrite K; apply Forall_forall; intros x I; apply repeat_spec in I; exact I).
  apply Forall_app in F as [_ F]. destruct ds as [|d ds]; [apply H; reflexivity|]. inversion F; subst. apply H. reflexivity.
Qed.
Lemma all_firstn : forall k ds, all_digits ds -> all_digits (firstn k ds) /\ all_digits (skipn k ds).
Proof. intros k ds H. unfold all_digits in *. rewrite <- (firstn_skipn k ds) in H. apply Forall_app in H. exact H. Qed.
Lemma firstn_lead : forall k ds, all_digits ds -> hd 0%nat ds <> 0%nat -> digits (firstn (S k) ds) /\ firstn (S k) ds <> [0%nat].
Proof.
  intros k ds A H. destruct ds as [|d ds]; [exfalso; apply H; reflexivity|]. cbn [hd] in H. split.
  - split; [apply (all_firstn (S k)) in A; apply A|]. right. exists d, (firstn k ds). split; [reflexivity|assumption].
  - cbn [firstn]. congruence.
Qed.
Lemma text_shape : forall ds X text, List.length ds = 6%nat -> all_digits ds -> hd 0%nat ds <> 0%nat -> six_digit_text ds X text -> inhabited (shape ds X text).
Proof.
  intros ds X text L A H T. destruct T as [R|R|es R (Ae & Ve & Le)].
  - destruct (all_firstn (Z.to_nat X + 1) ds A) as [A1 A2]. destruct (firstn_lead (Z.to_nat X) ds A H) as [D D0]. replace (Z.to_nat X + 1)%nat with (S (Z.to_nat X)) in * by lia. constructor.
    refine (Build_shape ds X _ (firstn (S (Z.to_nat X)) ds) (strip (skipn (S (Z.to_nat X)) ds)) [] 0 _ D (strip_digits _ A2) (or_introl (conj eq_refl eq_refl)) _ _ _).
    + unfold point_text. rewrite app_nil_r. reflexivity.
    + rewrite firstn_length. lia.
    + intros E. contradiction.
    + rewrite Z.sub_0_l, <- (strip_value (firstn (S (Z.to_nat X)) ds) (skipn (S (Z.to_nat X)) ds)), firstn_skipn, skipn_length, L. do 2 f_equal. lia.
  - assert (all_digits (repeat 0%nat (Z.to_nat (- X - 1)) ++ ds)) as A2. { apply Forall_app. split; [|assumption]. apply Forall_forall. intros x I. apply repeat_spec in I. lia. }
    constructor. refine (Build_shape ds X _ [0%nat] (strip (repeat 0%nat (Z.to_nat (- X - 1)) ++ ds)) [] 0 _ _ (strip_digits _ A2) (or_introl (conj eq_refl eq_refl)) _ _ _).
    + unfold point_text. rewrite app_nil_r. reflexivity.
    + split; [constructor; [lia|constructor]|left; reflexivity].
    + cbn [List.length]. lia.
    + intros _. apply strip_nonempty. assumption.
    + transitivity (IZR (decimal_value ([0%nat] ++ (repeat 0%nat (Z.to_nat (- X - 1)) ++ ds))) * powerRZ 10 (- Z.of_nat (List.length (repeat 0%nat (Z.to_nat (- X - 1)) ++ ds))))%R; [symmetry; apply strip_value|]. rewrite app_length, repeat_length, L. rewrite app_assoc, (dv_app _ ds). change ([0%nat] ++ repeat 0%nat (Z.to_nat (- X - 1))) with (repeat 0%nat (S (Z.to_nat (- X - 1)))). rewrite dv_zeros, Z.mul_0_l, Z.add_0_l. do 2 f_equal. lia.
  - destruct (all_firstn 1 ds A) as [A1 A2]. destruct (firstn_lead 0 ds A H) as [D D0]. constructor.
    refine (Build_shape ds X _ (firstn 1 ds) (strip (skipn 1 ds)) ("e"%char :: (if X <? 0 then "-"%char else "+"%char) :: map decimal_digit es) X _ D (strip_digits _ A2) _ _ _ _).
    + unfold point_text. rewrite <- app_assoc. reflexivity.
    + right. exists [if X <? 0 then "-"%char else "+"%char], (X <? 0), es. split; [reflexivity|]. split; [destruct (X <? 0); constructor|]. split; [assumption|]. split; [intros ->; cbn in Le; lia|].
      rewrite Ve. destruct (Z.ltb_spec X 0); lia.
    + rewrite firstn_length. lia.
    + intros E. contradiction.
    + unfold Zminus. rewrite powerRZ_add by lra. rewrite <- Rmult_assoc, (Rmult_comm (IZR _)), Rmult_assoc. rewrite <- (strip_value (firstn 1 ds) (skipn 1 ds)), firstn_skipn, skipn_length, L. rewrite (Rmult_comm (powerRZ 10 X)), Rmult_assoc, <- powerRZ_add by lra. do 2 f_equal. change (Z.of_nat (6 - 1)) with 5. lia.
Qed.
(** ** As input *)
Lemma read_stops : forall base is c rest acc, all_digits is -> 10 <= base -> is_digit base c = false -> 
  exists v, read_digits base acc (map decimal_digit is ++ c :: rest) = (v, c :: rest).
Proof.
  intros base is c rest. induction is as [|d is IH]; intros acc A B N.
  - exists acc. cbn [map app read_digits]. unfold is_digit in N. destruct (digit c); [rewrite N|]; reflexivity.
  - inversion A as [|? ? Hd Hds]; subst. cbn [map app read_digits]. destruct (digit_case d Hd) as (-> & _). destruct (Z.ltb_spec (Z.of_nat d) base); [|lia]. apply IH; assumption.
Qed.
(** strtoll stops at the point or the exponent *)
Lemma after_other : forall whole neg is c rest, digits is -> c = "."%char \/ (c = "e"%char /\ is <> [0%nat]) -> snd (after_sign whole neg (map decimal_digit is ++ c :: rest)) = false.
Proof.
  intros whole neg is c rest [F [->|(d & is' & -> & N)]] C.
  - destruct C as [->|[_ C]]; [|contradiction]. cbn [map app]. destruct rest as [|c2 rest]; reflexivity.
  - assert (is_digit 10 c = false) as Nc by (destruct C as [->|[-> _]]; reflexivity). inversion F as [|? ? Hd Hds]; subst. destruct (digit_case d Hd) as (E1 & E2 & E3 & E4 & E5). specialize (E5 N).
    destruct (read_stops 10 (d :: is') c rest 0 F ltac:(lia) Nc) as [v R]. cbn [map app] in *.
    assert (is_digit 10 (decimal_digit d) = true) as I by (unfold is_digit; rewrite E1; apply Z.ltb_lt; lia).
    unfold after_sign. destruct (map decimal_digit is' ++ c :: rest) as [|c1 [|c2 s]]; destruct (ascii_dec (decimal_digit d) "0"); try contradiction; rewrite I, R; reflexivity.
Qed.
Lemma strtoll_other : forall (b : bool) is c rest, digits is -> c = "."%char \/ (c = "e"%char /\ is <> [0%nat]) ->
  snd (strtoll ((if b then ["-"%char] else []) ++ map decimal_digit is ++ c :: rest)) = false.
Proof.
  intros b is c rest D C. rewrite strtoll_signs. cbv zeta. destruct b; cbn [app].
  - pose proof (after_other ("-"%char :: map decimal_digit is ++ c :: rest) true is c rest D C) as A. exact A.
  - assert (exists d is', is = d :: is' /\ (d < 10)%nat) as (d & is' & E & Hd) by (destruct D as [F [->|(d & is' & -> & N)]]; inversion F; subst; eauto).
    pose proof (after_other (map decimal_digit is ++ c :: rest) false is c rest D C) as A. destruct (digit_case d Hd) as (_ & E2 & E3 & E4 & _). rewrite E in *. cbn [map app skip_space] in *. rewrite E2.
    destruct (ascii_dec (decimal_digit d) "-"); [contradiction|]. destruct (ascii_dec (decimal_digit d) "+"); [contradiction|]. exact A.
Qed.
(** a text that starts with a digit after an optional minus is a literal *)
Lemma looks_number : forall (b : bool) is rest, digits is -> let s := (if b then ["-"%char] else []) ++ map decimal_digit is ++ rest in ~ In s reserved /\ ~ is_letter s.
Proof.
  intros b is rest D s. assert (not_numeral s = false) as H.
  { assert (exists d is', is = d :: is' /\ (d < 10)%nat) as (d & is' & E & Hd) by (destruct D as [F [->|(d & is' & -> & N)]]; inversion F; subst; eauto).
    unfold s. rewrite E. destruct (digit_case d Hd) as (E1 & E2 & E3 & _). destruct b; cbn [map app not_numeral].
    - destruct (ascii_dec "-" "-"); [|contradiction]. unfold is_digit. rewrite E1. destruct (Z.ltb_spec (Z.of_nat d) 10); [reflexivity|lia].
    - destruct (ascii_dec (decimal_digit d) "-"); [contradiction|]. unfold is_digit. rewrite E1. destruct (Z.ltb_spec (Z.of_nat d) 10); [reflexivity|lia]. }
  split.
  - intros I. assert (forallb not_numeral reserved = true) as F by (vm_compute; reflexivity). rewrite forallb_forall in F. rewrite (F s I) in H. discriminate.
  - intros (i & Hi & E). rewrite E in H. clear E s. do 26 (destruct i as [|i]; [discriminate H|]). lia.
Qed.
(** a printed text is a numeral, or a decimal number that strtoll does not read *)
Definition signed_value (b : bool) (z : R) : R := ((if b then -1 else 1) * z)%R.
Lemma printed_shape : forall (b : bool) ds X unsigned, List.length ds = 6%nat -> all_digits ds -> hd 0%nat ds <> 0%nat -> six_digit_text ds X unsigned ->
  let text := (if b then ["-"%char] else []) ++ unsigned in let r := signed_value b (IZR (decimal_value ds) * powerRZ 10 (X - 5)) in
  (exists z, numeral text z /\ r = IZR z /\ -10 ^ 6 < z < 10 ^ 6) \/ (snd (strtoll text) = false /\ decimal_text text r /\ ~ In text reserved /\ ~ is_letter text).
Proof.
  intros b ds X unsigned L A H T text r. destruct (text_shape ds X unsigned L A H T) as [[whole fraction e E Et D Df He Hl Hz Hv]].
  assert (fraction = [] /\ e = [] /\ E = 0 \/ fraction <> [] \/ (e <> [])) as [(-> & -> & ->)|C].
  { destruct fraction as [|d fs]; [|right; left; discriminate]. destruct He as [[-> ->]|(s & b' & es & -> & _)]; [left; repeat split|right; right; discriminate]. }
  - left. exists (if b then - decimal_value whole else decimal_value whole). unfold text, r. rewrite Et, !app_nil_r. cbn [app]. rewrite <- Hv, app_nil_r. cbn [List.length]. change (0 - Z.of_nat 0) with 0. cbn [powerRZ]. split; [|split].
    + destruct b; cbn [app]; constructor; assumption.
    + unfold signed_value. destruct b; [rewrite opp_IZR|]; ring.
    + pose proof (dv_bound whole (proj1 D)) as B. pose proof (dv_nonneg whole). assert (10 ^ Z.of_nat (List.length whole) <= 10 ^ 6) by (apply Z.pow_le_mono_r; lia). destruct b; lia.
  - right. assert (exists c rest, unsigned = map decimal_digit whole ++ c :: rest /\ (c = "."%char \/ (c = "e"%char /\ whole <> [0%nat]))) as (c & rest & Eu & Hc).
    { destruct fraction as [|d fs].
      - destruct C as [C|C]; [contradiction|]. destruct He as [[-> _]|(s & b' & es & -> & _)]; [contradiction|]. exists "e"%char, (s ++ map decimal_digit es). split; [exact Et|]. right. split; [reflexivity|]. intros W. apply (Hz W). reflexivity.
      - exists "."%char, (map decimal_digit (d :: fs) ++ e). split; [exact Et|]. left. reflexivity. }
    assert (all_digits whole) as Aw by apply D. unfold text. split; [|split].
    + rewrite Eu. apply strtoll_other; assumption.
    + unfold r, signed_value. rewrite <- Hv, Et. apply decimal_number; [destruct b; constructor|assumption|destruct fraction; constructor; assumption| |].
      * destruct He as [[-> ->]|(s & b' & es & -> & Hs & He1 & He2 & ->)]; [constructor|]. apply exponent_some; auto.
      * destruct whole as [|d w]; [|discriminate]. destruct D as [_ [D|(d & w & D & _)]]; discriminate.
    + rewrite Eu. apply looks_number. assumption.
Qed.
