(** The functions of one argument that the linear types compute in double with
    one call of the mathematical library, with no long double between
    (exp.c, 2_raised.c, ln.c, lb.c, lg.c, sin.c, cos.c, tan.c, arcsin.c,
    arccos.c, arctan.c, sinh.c, cosh.c, tanh.c, sech.c, arsinh.c, arcosh.c,
    artanh.c).  No proofs in this file. *)
From Verif Require Import Wrappers.

Inductive in_double : unary_name -> Prop :=
| d_exp : in_double n_exp | d_exp_minus_1 : in_double n_exp_minus_1 | d_2_raised : in_double n_2_raised
| d_ln : in_double n_ln | d_ln_1_plus : in_double n_ln_1_plus | d_lb : in_double n_lb | d_lg : in_double n_lg
| d_sin : in_double n_sin | d_cos : in_double n_cos | d_tan : in_double n_tan
| d_arcsin : in_double n_arcsin | d_arccos : in_double n_arccos | d_arctan : in_double n_arctan
| d_sinh : in_double n_sinh | d_cosh : in_double n_cosh | d_tanh : in_double n_tanh | d_sech : in_double n_sech
| d_arsinh : in_double n_arsinh | d_arcosh : in_double n_arcosh | d_artanh : in_double n_artanh.
