(** Property C79: monotone functions.
    Theorems only; proofs are in MonoFloat.v, MonoConv.v, MonoFun.v, MonoFun2.v
    and MonoIdeal.v. *)
From Coq Require Import ZArith Reals Bool Lia Lra.
From Flocq Require Import Core.Core IEEE754.BinarySingleNaN.
From Verif Require Import CModel FloatModel Libm LibmSpec Spec Wrappers LibmIdeal ValueFacts WidthFacts WidthApi LogApi WrapApi LinArithRefute MonoSpec MonoConv MonoFun2 MonoIdeal.
Local Open Scope R_scope.

(** With a library of monotone functions, the functions of one takum never
    reverse an order the real functions keep: if the function increases between
    the values of s and t, and s <= t, then f(s) <= f(t), for every two takums
    at which f is not NaR.  Takums are ordered as integers are (C03). *)
Theorem C79_increasing_functions :
  forall k lm u w s t x y r q, c99 lm -> monotone lm ->
    is_intn (bits w) s -> is_intn (bits w) t -> value k (bits w) s = Some x -> value k (bits w) t = Some y ->
    x <= y -> inc_on u x y ->
    api_unary k lm u w s = Val r -> api_unary k lm u w t = Val q -> r <> nar (bits w) -> q <> nar (bits w) ->
    (r <= q)%Z.
Proof. exact api_inc. Qed.
Print Assumptions C79_increasing_functions.

Theorem C79_decreasing_functions :
  forall k lm u w s t x y r q, c99 lm -> monotone lm ->
    is_intn (bits w) s -> is_intn (bits w) t -> value k (bits w) s = Some x -> value k (bits w) t = Some y ->
    x <= y -> dec_on u x y ->
    api_unary k lm u w s = Val r -> api_unary k lm u w t = Val q -> r <> nar (bits w) -> q <> nar (bits w) ->
    (q <= r)%Z.
Proof. exact api_dec. Qed.
Print Assumptions C79_decreasing_functions.

(** and so with the conversions from floats to logarithmic takums; those to
    linear takums are monotone whatever the library (C13) *)
Theorem C79_log_from_float_monotone :
  forall lm n F f (x y : flt F) t u, c99 lm -> monotone lm -> log_from_float lm n F f ->
    is_finite x = true -> is_finite y = true -> B2R x <= B2R y -> f x = Val t -> f y = Val u -> (t <= u)%Z.
Proof. exact log_from_mono. Qed.
Print Assumptions C79_log_from_float_monotone.

(** the correctly rounded library is monotone; 9/8 and 5/4, linear16 *)
Example C79_case : monotone ideal /\ c99 ideal /\ is_intn (bits W16) 0x4100 /\ is_intn (bits W16) 0x4200 /\
  value Linear (bits W16) 0x4100 = Some (9 / 8) /\ value Linear (bits W16) 0x4200 = Some (5 / 4) /\
  inc_on n_cosh (9 / 8) (5 / 4) /\ dec_on n_arcoth (9 / 8) (5 / 4).
Proof.
  split; [exact ideal_monotone|]. split; [exact ideal_c99|]. split; [unfold is_intn; simpl; lia|]. split; [unfold is_intn; simpl; lia|]. split.
  { change (bits W16) with 16%Z. rewrite (value_const 16 0x4100) by lia. f_equal. assert (vm 16 0x4100 = 648518346341351424)%Z as -> by (vm_compute; reflexivity). assert (ve 16 0x4100 = -59)%Z as -> by (vm_compute; reflexivity). simpl. lra. }
  split. { change (bits W16) with 16%Z. rewrite (value_const 16 0x4200) by lia. f_equal. assert (vm 16 0x4200 = 720575940379279360)%Z as -> by (vm_compute; reflexivity). assert (ve 16 0x4200 = -59)%Z as -> by (vm_compute; reflexivity). simpl. lra. }
  split; right; left; (split; [lra|reflexivity]).
Qed.
