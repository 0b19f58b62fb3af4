(** The test programs for the hypotenuse and the angle of a point (test/hypotenuse.c,
    test/arctan2.c), for the harness of TestHarness.v, on the platform x86-64.  No
    proofs in this file. *)
From Coq Require Import ZArith.
From Verif Require Import CModel FloatModel Libm Wrappers WrapApi TestHarness TestPrograms TestFunctions.

(** test/hypotenuse.c:7-11 hypotenuse_reference, test/arctan2.c:7-11 arctan2_reference,
    test/arctan2.c:29-33 arctan2_over_pi_reference.  The program for the power
    (test/power.c) is not modelled; for the other functions of two takums see
    TestPrograms.v. *)
Definition reference_function2 (lm : libm) (b : binary_name) : option (flt f80 -> flt f80 -> flt f80) :=
  match b with
  | n_hypotenuse => Some (lib2 lm Fhypot f80)
  | n_arctan2 => Some (lib2 lm Fatan2 f80)
  | n_arctan2_over_pi => Some (fun a b => fdiv (lib2 lm Fatan2 f80 a b) test_PI)
  | _ => None
  end.
(** test/hypotenuse.c:13-27 hypotenuse_utb, test/arctan2.c:13-27 arctan2_utb,
    test/arctan2.c:35-49 arctan2_over_pi_utb *)
Definition function2_utb (lm : libm) (b : binary_name) : option unit_test_block :=
  match reference_function2 lm b with
  | Some r => Some (TAKUM_TAKUM_TAKUM (evaluate_takum_takum lm r) (fun k w => api_binary k lm b w))
  | None => None
  end.

(** test/arctan2.c:51-59 main, and the same in the programs with two blocks (ln.c, lb.c,
    lg.c, sin.c, cos.c, tan.c, cot.c, sec.c, csc.c, arcsin.c, arccos.c, arctan.c,
    arccot.c, arcsec.c, arccsc.c): the exit status.  Simplification: the second block may
    see any results of rand(), not only those that follow the results seen by the first. *)
Definition test_main2 (first second : unit_test_block) (result : Z) : Prop :=
  exists r s, run_unit_test_block first r /\ run_unit_test_block second s /\ result = (r + s)%Z.
