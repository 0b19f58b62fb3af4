(** A strtold that reads decimal numbers as TextSpec.v demands: it rounds them to
    the nearest long double. *)
From Coq Require Import ZArith List Bool Ascii String Reals Lia Lra.
From Flocq Require Import Core.Core Relative IEEE754.BinarySingleNaN.
From Verif Require Import CModel FloatModel Libm FloatFacts LibmSpec LibmIdeal Spec Calculator CalcSpec TextSpec.
Import ListNotations.
Local Open Scope Z_scope.

Definition digit_of (c : ascii) : option nat :=
  let n := nat_of_ascii c in if (48 <=? n)%nat && (n <? 58)%nat then Some (n - 48)%nat else None.
Fixpoint take_digits (s : bytes) : list nat * bytes :=
  match s with
  | [] => ([], [])
  | c :: s' => match digit_of c with Some d => let '(ds, r) := take_digits s' in (d :: ds, r) | None => ([], s) end
  end.
Definition take_sign (s : bytes) : bool * bytes :=
  match s with
  | c :: s' => if ascii_dec c "-" then (true, s') else if ascii_dec c "+" then (false, s') else (false, s)
  | [] => (false, [])
  end.
Definition take_fraction (s : bytes) : list nat * bytes :=
  match s with c :: s' => if ascii_dec c "." then take_digits s' else ([], s) | [] => ([], []) end.
Definition take_exponent (s : bytes) : option Z :=
  match s with
  | [] => Some 0
  | c :: s' =>
      if (if ascii_dec c "e" then true else if ascii_dec c "E" then true else false) then
        let '(b, s2) := take_sign s' in
        match take_digits s2 with ((_ :: _) as es, []) => Some (if b then - decimal_value es else decimal_value es) | _ => None end
      else None
  end.
Definition strtold_ideal (s : bytes) : flt f80 * bool :=
  let '(b, s1) := take_sign s in let '(whole, s2) := take_digits s1 in let '(fraction, s3) := take_fraction s2 in
  match whole ++ fraction, take_exponent s3 with
  | _ :: _, Some E => (of_real f80 ((if b then -1 else 1) * (IZR (decimal_value (whole ++ fraction)) * powerRZ 10 (E - Z.of_nat (List.length fraction)))), true)
  | _, _ => (B754_zero false, false)
  end.

Lemma digit_of_decimal : forall d, (d < 10)%nat -> digit_of (decimal_digit d) = Some d /\ forall a b : ascii, In a ["-"; "+"; "."; "e"; "E"]%char -> decimal_digit d <> a.
Proof.
  intros d H. do 10 (destruct d as [|d]; [split; [reflexivity|]; intros a _ I E; cbn in E; subst a; repeat (destruct I as [I|I]; [discriminate|]); destruct I|]). lia.
Qed.
Definition no_digit (s : bytes) : Prop := match s with [] => True | c :: _ => digit_of c = None end.
Lemma take_digits_spec : forall ds r, all_digits ds -> no_digit r -> take_digits (map decimal_digit ds ++ r) = (ds, r).
Proof.
  induction ds as [|d ds IH]; intros r A N.
  - cbn [map app]. destruct r as [|c r]; [reflexivity|]. cbn [take_digits]. cbn in N. rewrite N. reflexivity.
  - inversion A as [|? ? Hd Hds]; subst. cbn [map app take_digits]. rewrite (proj1 (digit_of_decimal d Hd)), (IH r Hds N). reflexivity.
Qed.
(** what does not begin with a sign *)
Definition no_sign (s : bytes) : Prop := match s with [] => True | c :: _ => c <> "-"%char /\ c <> "+"%char end.
Lemma take_sign_spec : forall s b r, sign_text s b -> no_sign r -> take_sign (s ++ r) = (b, r).
Proof.
  intros s b r [] N; cbn [app]; [|reflexivity|reflexivity]. destruct r as [|c r]; [reflexivity|]. destruct N as [N1 N2]. cbn [take_sign].
  destruct (ascii_dec c "-"); [contradiction|]. destruct (ascii_dec c "+"); [contradiction|]. reflexivity.
Qed.
Lemma digits_no_sign : forall ds r, all_digits ds -> no_sign r -> no_sign (map decimal_digit ds ++ r).
Proof.
  intros [|d ds] r A N; [exact N|]. inversion A as [|? ? Hd _]; subst. pose proof (proj2 (digit_of_decimal d Hd)) as K. cbn [map app no_sign]. split; apply K; try exact "0"%char; cbn; tauto.
Qed.
Lemma exponent_spec : forall e E, exponent_text e E -> take_exponent e = Some E /\ no_digit e /\ no_sign e /\ take_fraction e = ([], e).
Proof.
  intros e E [|c s b es C S A N]; [repeat split|]. split; [|destruct C as [-> | -> ]; split; [reflexivity|split; [split; discriminate|reflexivity]|reflexivity|split; [split; discriminate|reflexivity]]].
  cbn [take_exponent]. replace (if ascii_dec c "e" then true else if ascii_dec c "E" then true else false) with true by (destruct C as [-> | -> ]; reflexivity).
  rewrite <- (app_nil_r (map decimal_digit es)). rewrite (take_sign_spec s b _ S (digits_no_sign es [] A I)), (take_digits_spec es [] A I). destruct es; [contradiction|]. reflexivity.
Qed.
Lemma strtold_ideal_reads : forall text r, decimal_text text r -> strtold_ideal text = (of_real f80 r, true).
Proof.
  intros text r [s b whole f fraction e E S A F X N]. destruct (exponent_spec e E X) as (E1 & E2 & E3 & E4). unfold strtold_ideal.
  assert (no_digit (f ++ e) /\ no_sign (f ++ e) /\ take_fraction (f ++ e) = (fraction, e)) as (F1 & F2 & F3).
  { destruct F as [|ds Ad]; [cbn [app]; auto|]. cbn [app]. split; [reflexivity|]. split; [split; discriminate|]. cbn [take_fraction]. destruct (ascii_dec "." "."); [|contradiction]. apply take_digits_spec; assumption. }
  rewrite (take_sign_spec s b _ S (digits_no_sign whole _ A F2)), (take_digits_spec whole _ A F1), F3, E1. destruct (whole ++ fraction); [contradiction|]. reflexivity.
Qed.
Lemma strtold_ideal_ok : reads_decimals strtold_ideal.
Proof.
  intros text r D B. rewrite (strtold_ideal_reads text r D). exists (of_real f80 r). split; [reflexivity|].
  change 2%R with (IZR radix2) in *. rewrite <- !bpow_powerRZ in *. destruct (of_real_spec f80 r) as [H _].
  assert (Rabs (RF f80 r) < bpow radix2 (femax f80))%R as L.
  { apply (RF_lt_emax f80 r 16000); [cbn; lia|]. destruct B as [-> | B]; [rewrite Rabs_R0; apply bpow_ge_0|apply B]. }
  destruct (H L) as [[F V] _]. split; [assumption|]. rewrite V. destruct B as [-> |[B _]].
  - rewrite RF_0, Rminus_0_r, Rabs_R0. lra.
  - unfold RF. eapply Rle_trans; [apply (relative_error_N_FLT radix2 (femin f80) (fprec f80) (fprec_gt_0 f80) (fun x => negb (Z.even x)))|].
    + eapply Rle_trans; [|exact B]. apply bpow_le. cbn. lia.
    + apply Rmult_le_compat_r; [apply Rabs_pos|]. change (/ 2 * bpow radix2 (- fprec f80 + 1) <= bpow radix2 (-62))%R. replace (/ 2)%R with (bpow radix2 (-1)) by reflexivity. rewrite <- bpow_plus. apply bpow_le. cbn. lia.
Qed.
