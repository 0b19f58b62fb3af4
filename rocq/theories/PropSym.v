(** Property C78: odd and even functions.
    Theorems only; proofs are in FunSym.v and FunSym2.v. *)
From Coq Require Import ZArith Reals Bool Lia Lra.
From Flocq Require Import Core.Core IEEE754.BinarySingleNaN.
From Verif Require Import CModel FloatModel Libm LibmSpec Spec Wrappers LibmIdeal ValueFacts WidthFacts WidthApi WrapApi WrapSpec WrapSpec2 LinArithRefute FunSym FunSym2.
Local Open Scope R_scope.

(** f(-x) = -f(x), and both are NaR if one is; half_integer x means that 2x is
    an integer, where the functions of pi times x fail (C55) *)
Theorem C78_linear_odd_functions :
  forall lm, symmetric lm -> forall u w t x, odd_name u = true -> is_intn (bits w) t -> value Linear (bits w) t = Some x -> x <> 0 ->
    (pi_fun u = true -> ~ half_integer x) ->
    exists r, api_unary Linear lm u w t = Val r /\ (r <> nar (bits w) -> api_unary Linear lm u w (- t) = Val (- r)%Z) /\
      (r = nar (bits w) -> api_unary Linear lm u w (- t) = Val (nar (bits w))).
Proof. exact linear_odd. Qed.
Print Assumptions C78_linear_odd_functions.

(** f(-x) = f(x) *)
Theorem C78_linear_even_functions :
  forall lm, symmetric lm -> forall u w t x, even_name u = true -> is_intn (bits w) t -> value Linear (bits w) t = Some x ->
    (pi_fun u = true -> ~ half_integer x) -> api_unary Linear lm u w (- t) = api_unary Linear lm u w t.
Proof. exact linear_even. Qed.
Print Assumptions C78_linear_even_functions.

Theorem C78_log_even_functions :
  forall lm u w t x, c99 lm -> symmetric lm -> even_name u = true -> is_intn (bits w) t -> value Logarithmic (bits w) t = Some x ->
    pi_fun u = false -> api_unary Logarithmic lm u w (- t) = api_unary Logarithmic lm u w t.
Proof. exact log_even. Qed.
Print Assumptions C78_log_even_functions.

(** sin(pi x) for x = 9/8 *)
Example C78_case : symmetric ideal /\ c99 ideal /\ odd_name n_sin_pi_times = true /\ is_intn (bits W16) 0x4100 /\
  value Linear (bits W16) 0x4100 = Some (9 / 8) /\ ~ half_integer (9 / 8) /\ even_name n_cosh = true /\ pi_fun n_cosh = false.
Proof.
  split; [exact ideal_symmetric|]. split; [exact ideal_c99|]. split; [reflexivity|]. split; [unfold is_intn; simpl; lia|]. split.
  { change (bits W16) with 16%Z. rewrite (value_const 16 0x4100) by lia. f_equal. assert (vm 16 0x4100 = 648518346341351424)%Z as -> by (vm_compute; reflexivity). assert (ve 16 0x4100 = -59)%Z as -> by (vm_compute; reflexivity). simpl. lra. }
  split; [|split; reflexivity]. intros [j H]. assert (IZR 9 = IZR (4 * j)) as E by (rewrite mult_IZR; lra). apply eq_IZR in E. lia.
Qed.
