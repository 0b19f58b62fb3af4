(** Model of the floating-point conversions of src/conversion.c.  [lm] is the
    mathematical library, [pf] the platform.  FLT_EVAL_METHOD is 0 (every
    operation is rounded to the format of its type), as on x86-64.
    No proofs in this file. *)
From Coq Require Import ZArith Bool.
From Flocq Require Import IEEE754.BinarySingleNaN.
From Verif Require Import CModel FloatModel Libm WidthConv Codec.
Local Open Scope Z_scope.

(** src/util.h:10, SQRTE = 1.6487212707001281468486507878141635716538L *)
Definition SQRTE (pf : platform) : flt (ld pf) :=
  fdecimal (ld pf) 16487212707001281468486507878141635716538 40.

Section Conversion.
Variable pf : platform.
Variable lm : libm.
Let L := ld pf.

Definition clog {f} (x : flt f) : flt f := lib1 lm Flog f x.
Definition cpow {f} (x y : flt f) : flt f := lib2 lm Fpow f x y.

(** * From float32 *)

(** src/conversion.c:44-55; the parameter l of the callee is a float *)
Definition takum8_from_float32 (f : flt f32) : outcome Z :=
  if feq f (fzero f32) then Val 0
  else if negb (fisfinite f) then Val (NaR 8)
  else codec_takum8_from_s_and_l pf (flt_ f (fzero f32))
         (fcast f32 (fmul (fint f64 2) (clog (ffabs (fcast f64 f))))).
(** src/conversion.c:57-68 *)
Definition takum16_from_float32 (f : flt f32) : outcome Z :=
  if feq f (fzero f32) then Val 0
  else if negb (fisfinite f) then Val (NaR 16)
  else codec_takum16_from_s_and_l (flt_ f (fzero f32))
         (fmul (fint f64 2) (clog (ffabs (fcast f64 f)))).
(** src/conversion.c:70-81 *)
Definition takum32_from_float32 (f : flt f32) : outcome Z :=
  if feq f (fzero f32) then Val 0
  else if negb (fisfinite f) then Val (NaR 32)
  else codec_takum32_from_s_and_l pf (flt_ f (fzero f32))
         (fcast L (fmul (fint f64 2) (clog (ffabs (fcast f64 f))))).
(** src/conversion.c:83-94 *)
Definition takum64_from_float32 (f : flt f32) : outcome Z :=
  if feq f (fzero f32) then Val 0
  else if negb (fisfinite f) then Val (NaR 64)
  else codec_takum64_from_s_and_l pf (flt_ f (fzero f32))
         (fmul (fint L 2) (clog (ffabs (fcast L f)))).

(** src/conversion.c:96-101 *)
Definition takum_linear8_from_float32 (f : flt f32) : outcome Z :=
  codec_takum8_from_s_and_l pf (flt_ f (fzero f32))
    (fcast f32 (codec_linear_l_from_float32 f)).
(** src/conversion.c:103-108 *)
Definition takum_linear16_from_float32 (f : flt f32) : outcome Z :=
  codec_takum16_from_s_and_l (flt_ f (fzero f32))
    (fcast f64 (fcast f32 (codec_linear_l_from_float32 f))).
(** src/conversion.c:110-115 *)
Definition takum_linear32_from_float32 (f : flt f32) : outcome Z :=
  codec_takum32_from_s_and_l pf (flt_ f (fzero f32))
    (fcast L (codec_linear_l_from_float32 f)).
(** src/conversion.c:117-122 *)
Definition takum_linear64_from_float32 (f : flt f32) : outcome Z :=
  codec_takum64_from_s_and_l pf (flt_ f (fzero f32))
    (fcast L (codec_linear_l_from_float32 f)).

(** * From float64 *)

(** src/conversion.c:125-136 *)
Definition takum8_from_float64 (f : flt f64) : outcome Z :=
  if feq f (fzero f64) then Val 0
  else if negb (fisfinite f) then Val (NaR 8)
  else
    let! t := codec_takum64_from_s_and_l pf (flt_ f (fzero f64))
                (fmul (fint L 2) (clog (ffabs (fcast L f)))) in
    takum8_from_takum64 t.
(** src/conversion.c:138-149 *)
Definition takum16_from_float64 (f : flt f64) : outcome Z :=
  if feq f (fzero f64) then Val 0
  else if negb (fisfinite f) then Val (NaR 16)
  else
    let! t := codec_takum64_from_s_and_l pf (flt_ f (fzero f64))
                (fmul (fint L 2) (clog (ffabs (fcast L f)))) in
    takum16_from_takum64 t.
(** src/conversion.c:151-162 *)
Definition takum32_from_float64 (f : flt f64) : outcome Z :=
  if feq f (fzero f64) then Val 0
  else if negb (fisfinite f) then Val (NaR 32)
  else codec_takum32_from_s_and_l pf (flt_ f (fzero f64))
         (fmul (fint L 2) (clog (ffabs (fcast L f)))).
(** src/conversion.c:164-175 *)
Definition takum64_from_float64 (f : flt f64) : outcome Z :=
  if feq f (fzero f64) then Val 0
  else if negb (fisfinite f) then Val (NaR 64)
  else codec_takum64_from_s_and_l pf (flt_ f (fzero f64))
         (fmul (fint L 2) (clog (ffabs (fcast L f)))).

(** src/conversion.c:177-182 *)
Definition takum_linear8_from_float64 (f : flt f64) : outcome Z :=
  codec_takum8_from_s_and_l pf (flt_ f (fzero f64))
    (fcast f32 (codec_linear_l_from_float64 pf f)).
(** src/conversion.c:184-189 *)
Definition takum_linear16_from_float64 (f : flt f64) : outcome Z :=
  codec_takum16_from_s_and_l (flt_ f (fzero f64))
    (fcast f64 (codec_linear_l_from_float64 pf f)).
(** src/conversion.c:191-196 *)
Definition takum_linear32_from_float64 (f : flt f64) : outcome Z :=
  codec_takum32_from_s_and_l pf (flt_ f (fzero f64))
    (codec_linear_l_from_float64 pf f).
(** src/conversion.c:198-203 *)
Definition takum_linear64_from_float64 (f : flt f64) : outcome Z :=
  codec_takum64_from_s_and_l pf (flt_ f (fzero f64))
    (codec_linear_l_from_float64 pf f).

(** * From extended float *)

(** src/conversion.c:206-217 *)
Definition takum8_from_extended_float (f : flt L) : outcome Z :=
  if feq f (fzero L) then Val 0
  else if negb (fisfinite f) then Val (NaR 8)
  else
    let! t := codec_takum64_from_s_and_l pf (flt_ f (fzero L))
                (fmul (fint L 2) (clog (ffabs f))) in
    takum8_from_takum64 t.
(** src/conversion.c:219-230 *)
Definition takum16_from_extended_float (f : flt L) : outcome Z :=
  if feq f (fzero L) then Val 0
  else if negb (fisfinite f) then Val (NaR 16)
  else
    let! t := codec_takum64_from_s_and_l pf (flt_ f (fzero L))
                (fmul (fint L 2) (clog (ffabs f))) in
    takum16_from_takum64 t.
(** src/conversion.c:232-243 *)
Definition takum32_from_extended_float (f : flt L) : outcome Z :=
  if feq f (fzero L) then Val 0
  else if negb (fisfinite f) then Val (NaR 32)
  else
    let! t := codec_takum64_from_s_and_l pf (flt_ f (fzero L))
                (fmul (fint L 2) (clog (ffabs f))) in
    takum32_from_takum64 t.
(** src/conversion.c:245-255 *)
Definition takum64_from_extended_float (f : flt L) : outcome Z :=
  if feq f (fzero L) then Val 0
  else if negb (fisfinite f) then Val (NaR 64)
  else codec_takum64_from_s_and_l pf (flt_ f (fzero L))
         (fmul (fint L 2) (clog (ffabs f))).

(** src/conversion.c:257-262 *)
Definition takum_linear8_from_extended_float (f : flt L) : outcome Z :=
  codec_takum8_from_s_and_l pf (flt_ f (fzero L))
    (fcast f32 (codec_linear_l_from_extended_float pf f)).
(** src/conversion.c:264-269 *)
Definition takum_linear16_from_extended_float (f : flt L) : outcome Z :=
  codec_takum16_from_s_and_l (flt_ f (fzero L))
    (fcast f64 (codec_linear_l_from_extended_float pf f)).
(** src/conversion.c:271-276 *)
Definition takum_linear32_from_extended_float (f : flt L) : outcome Z :=
  codec_takum32_from_s_and_l pf (flt_ f (fzero L))
    (codec_linear_l_from_extended_float pf f).
(** src/conversion.c:278-283 *)
Definition takum_linear64_from_extended_float (f : flt L) : outcome Z :=
  codec_takum64_from_s_and_l pf (flt_ f (fzero L))
    (codec_linear_l_from_extended_float pf f).

(** * To floats: logarithmic *)

(** (t != 0) * (1 - 2 * (t < 0)), an int *)
Definition int_sign (t : Z) : Z := b2z (negb (t =? 0)) * (1 - 2 * b2z (t <? 0)).

(** src/conversion.c:630-634 *)
Definition takum8_to_float32 (t : Z) : outcome (flt f32) :=
  let! l := codec_takum8_to_l t in
  Val (fmul (fint f32 (int_sign t)) (cpow (fcast f32 (SQRTE pf)) l)).
(** src/conversion.c:636-641 *)
Definition takum16_to_float32 (t : Z) : outcome (flt f32) :=
  let! l := codec_takum16_to_l t in
  Val (fmul (fint f32 (int_sign t)) (cpow (fcast f32 (SQRTE pf)) l)).
(** src/conversion.c:643-648 *)
Definition takum32_to_float32 (t : Z) : outcome (flt f32) :=
  let! l := codec_takum32_to_l t in
  Val (fmul (fint f32 (int_sign t)) (cpow (fcast f32 (SQRTE pf)) (fcast f32 l))).
(** src/conversion.c:650-655 *)
Definition takum64_to_float32 (t : Z) : outcome (flt f32) :=
  let! l := codec_takum64_to_l pf t in
  Val (fmul (fint f32 (int_sign t)) (cpow (fcast f32 (SQRTE pf)) (fcast f32 l))).

(** src/conversion.c:686-691: powl, the product is a long double *)
Definition takum8_to_float64 (t : Z) : outcome (flt f64) :=
  let! l := codec_takum8_to_l t in
  Val (fcast f64 (fmul (fint L (int_sign t)) (cpow (SQRTE pf) (fcast L l)))).
(** src/conversion.c:693-698 *)
Definition takum16_to_float64 (t : Z) : outcome (flt f64) :=
  let! l := codec_takum16_to_l t in
  Val (fmul (fint f64 (int_sign t)) (cpow (fcast f64 (SQRTE pf)) (fcast f64 l))).
(** src/conversion.c:700-704 *)
Definition takum32_to_float64 (t : Z) : outcome (flt f64) :=
  let! l := codec_takum32_to_l t in
  Val (fmul (fint f64 (int_sign t)) (cpow (fcast f64 (SQRTE pf)) l)).
(** src/conversion.c:706-711 *)
Definition takum64_to_float64 (t : Z) : outcome (flt f64) :=
  let! l := codec_takum64_to_l pf t in
  Val (fmul (fint f64 (int_sign t)) (cpow (fcast f64 (SQRTE pf)) (fcast f64 l))).

(** src/conversion.c:742-747 *)
Definition takum8_to_extended_float (t : Z) : outcome (flt L) :=
  let! l := codec_takum8_to_l t in
  Val (fmul (fint L (int_sign t)) (cpow (SQRTE pf) (fcast L l))).
(** src/conversion.c:749-754 *)
Definition takum16_to_extended_float (t : Z) : outcome (flt L) :=
  let! l := codec_takum16_to_l t in
  Val (fmul (fint L (int_sign t)) (cpow (SQRTE pf) (fcast L l))).
(** src/conversion.c:756-761 *)
Definition takum32_to_extended_float (t : Z) : outcome (flt L) :=
  let! l := codec_takum32_to_l t in
  Val (fmul (fint L (int_sign t)) (cpow (SQRTE pf) (fcast L l))).
(** src/conversion.c:763-768 *)
Definition takum64_to_extended_float (t : Z) : outcome (flt L) :=
  let! l := codec_takum64_to_l pf t in
  Val (fmul (fint L (int_sign t)) (cpow (SQRTE pf) l)).

(** * To floats: linear *)

(** src/conversion.c:714-719 *)
Definition takum_linear8_to_float64 (t : Z) : outcome (flt f64) :=
  let! l := codec_takum8_to_l t in
  codec_s_and_linear_l_to_float64 pf (t <? 0) (fcast L l).
(** src/conversion.c:721-726 *)
Definition takum_linear16_to_float64 (t : Z) : outcome (flt f64) :=
  let! l := codec_takum16_to_l t in
  codec_s_and_linear_l_to_float64 pf (t <? 0) (fcast L l).
(** src/conversion.c:728-733 *)
Definition takum_linear32_to_float64 (t : Z) : outcome (flt f64) :=
  let! l := codec_takum32_to_l t in
  codec_s_and_linear_l_to_float64 pf (t <? 0) (fcast L l).
(** src/conversion.c:735-740 *)
Definition takum_linear64_to_float64 (t : Z) : outcome (flt f64) :=
  let! l := codec_takum64_to_l pf t in
  codec_s_and_linear_l_to_float64 pf (t <? 0) l.

(** src/conversion.c:657-662, 664-669, 671-676, 678-683: (float) of the
    double *)
Definition takum_linear8_to_float32 (t : Z) : outcome (flt f32) :=
  let! l := codec_takum8_to_l t in
  let! d := codec_s_and_linear_l_to_float64 pf (t <? 0) (fcast L l) in
  Val (fcast f32 d).
(** src/conversion.c:664-669 *)
Definition takum_linear16_to_float32 (t : Z) : outcome (flt f32) :=
  let! l := codec_takum16_to_l t in
  let! d := codec_s_and_linear_l_to_float64 pf (t <? 0) (fcast L l) in
  Val (fcast f32 d).
(** src/conversion.c:671-676 *)
Definition takum_linear32_to_float32 (t : Z) : outcome (flt f32) :=
  let! l := codec_takum32_to_l t in
  let! d := codec_s_and_linear_l_to_float64 pf (t <? 0) (fcast L l) in
  Val (fcast f32 d).
(** src/conversion.c:678-683 *)
Definition takum_linear64_to_float32 (t : Z) : outcome (flt f32) :=
  let! l := codec_takum64_to_l pf t in
  let! d := codec_s_and_linear_l_to_float64 pf (t <? 0) l in
  Val (fcast f32 d).

(** src/conversion.c:770-775: (double) of the float, converted by the call *)
Definition takum_linear8_to_extended_float (t : Z) : outcome (flt L) :=
  let! l := codec_takum8_to_l t in
  let! d := codec_s_and_linear_l_to_float64 pf (t <? 0) (fcast L (fcast f64 l)) in
  Val (fcast L d).
(** src/conversion.c:777-782 *)
Definition takum_linear16_to_extended_float (t : Z) : outcome (flt L) :=
  let! l := codec_takum16_to_l t in
  let! d := codec_s_and_linear_l_to_float64 pf (t <? 0) (fcast L l) in
  Val (fcast L d).
(** src/conversion.c:784-789 *)
Definition takum_linear32_to_extended_float (t : Z) : outcome (flt L) :=
  let! l := codec_takum32_to_l t in
  let! d := codec_s_and_linear_l_to_float64 pf (t <? 0) (fcast L l) in
  Val (fcast L d).
(** src/conversion.c:791-796 *)
Definition takum_linear64_to_extended_float (t : Z) : outcome (flt L) :=
  let! l := codec_takum64_to_l pf t in
  codec_s_and_linear_l_to_extended_float pf (t <? 0) l.

(** * Between logarithmic and linear takums *)

(** src/conversion.c:304-326 *)
Definition takum_linear8_from_takum8 (t : Z) : outcome Z :=
  let! f := takum8_to_float64 t in takum_linear8_from_float64 f.
(** src/conversion.c:310-314 *)
Definition takum_linear16_from_takum8 (t : Z) : outcome Z :=
  let! f := takum8_to_float64 t in takum_linear16_from_float64 f.
(** src/conversion.c:316-320 *)
Definition takum_linear32_from_takum8 (t : Z) : outcome Z :=
  let! f := takum8_to_float64 t in takum_linear32_from_float64 f.
(** src/conversion.c:322-326 *)
Definition takum_linear64_from_takum8 (t : Z) : outcome Z :=
  let! f := takum8_to_extended_float t in takum_linear64_from_extended_float f.
(** src/conversion.c:347-369 *)
Definition takum_linear8_from_takum16 (t : Z) : outcome Z :=
  let! f := takum16_to_float64 t in takum_linear8_from_float64 f.
(** src/conversion.c:353-357 *)
Definition takum_linear16_from_takum16 (t : Z) : outcome Z :=
  let! f := takum16_to_float64 t in takum_linear16_from_float64 f.
(** src/conversion.c:359-363 *)
Definition takum_linear32_from_takum16 (t : Z) : outcome Z :=
  let! f := takum16_to_float64 t in takum_linear32_from_float64 f.
(** src/conversion.c:365-369 *)
Definition takum_linear64_from_takum16 (t : Z) : outcome Z :=
  let! f := takum16_to_extended_float t in takum_linear64_from_extended_float f.
(** src/conversion.c:390-412 *)
Definition takum_linear8_from_takum32 (t : Z) : outcome Z :=
  let! f := takum32_to_float64 t in takum_linear8_from_float64 f.
(** src/conversion.c:396-400 *)
Definition takum_linear16_from_takum32 (t : Z) : outcome Z :=
  let! f := takum32_to_float64 t in takum_linear16_from_float64 f.
(** src/conversion.c:402-406 *)
Definition takum_linear32_from_takum32 (t : Z) : outcome Z :=
  let! f := takum32_to_float64 t in takum_linear32_from_float64 f.
(** src/conversion.c:408-412 *)
Definition takum_linear64_from_takum32 (t : Z) : outcome Z :=
  let! f := takum32_to_extended_float t in takum_linear64_from_extended_float f.
(** src/conversion.c:433-455 *)
Definition takum_linear8_from_takum64 (t : Z) : outcome Z :=
  let! f := takum64_to_extended_float t in takum_linear8_from_extended_float f.
(** src/conversion.c:439-443 *)
Definition takum_linear16_from_takum64 (t : Z) : outcome Z :=
  let! f := takum64_to_extended_float t in takum_linear16_from_extended_float f.
(** src/conversion.c:445-449 *)
Definition takum_linear32_from_takum64 (t : Z) : outcome Z :=
  let! f := takum64_to_extended_float t in takum_linear32_from_extended_float f.
(** src/conversion.c:451-455 *)
Definition takum_linear64_from_takum64 (t : Z) : outcome Z :=
  let! f := takum64_to_extended_float t in takum_linear64_from_extended_float f.
(** src/conversion.c:457-480 *)
Definition takum8_from_takum_linear8 (t : Z) : outcome Z :=
  let! f := takum_linear8_to_float64 t in takum8_from_float64 f.
(** src/conversion.c:464-468 *)
Definition takum16_from_takum_linear8 (t : Z) : outcome Z :=
  let! f := takum_linear8_to_float64 t in takum16_from_float64 f.
(** src/conversion.c:470-474 *)
Definition takum32_from_takum_linear8 (t : Z) : outcome Z :=
  let! f := takum_linear8_to_float64 t in takum32_from_float64 f.
(** src/conversion.c:476-480 *)
Definition takum64_from_takum_linear8 (t : Z) : outcome Z :=
  let! f := takum_linear8_to_extended_float t in takum64_from_extended_float f.
(** src/conversion.c:500-523 *)
Definition takum8_from_takum_linear16 (t : Z) : outcome Z :=
  let! f := takum_linear16_to_float64 t in takum8_from_float64 f.
(** src/conversion.c:507-511 *)
Definition takum16_from_takum_linear16 (t : Z) : outcome Z :=
  let! f := takum_linear16_to_float64 t in takum16_from_float64 f.
(** src/conversion.c:513-517 *)
Definition takum32_from_takum_linear16 (t : Z) : outcome Z :=
  let! f := takum_linear16_to_float64 t in takum32_from_float64 f.
(** src/conversion.c:519-523 *)
Definition takum64_from_takum_linear16 (t : Z) : outcome Z :=
  let! f := takum_linear16_to_extended_float t in takum64_from_extended_float f.
(** src/conversion.c:543-566 *)
Definition takum8_from_takum_linear32 (t : Z) : outcome Z :=
  let! f := takum_linear32_to_float64 t in takum8_from_float64 f.
(** src/conversion.c:550-554 *)
Definition takum16_from_takum_linear32 (t : Z) : outcome Z :=
  let! f := takum_linear32_to_float64 t in takum16_from_float64 f.
(** src/conversion.c:556-560 *)
Definition takum32_from_takum_linear32 (t : Z) : outcome Z :=
  let! f := takum_linear32_to_float64 t in takum32_from_float64 f.
(** src/conversion.c:562-566 *)
Definition takum64_from_takum_linear32 (t : Z) : outcome Z :=
  let! f := takum_linear32_to_extended_float t in takum64_from_extended_float f.
(** src/conversion.c:586-609 *)
Definition takum8_from_takum_linear64 (t : Z) : outcome Z :=
  let! f := takum_linear64_to_extended_float t in takum8_from_extended_float f.
(** src/conversion.c:593-597 *)
Definition takum16_from_takum_linear64 (t : Z) : outcome Z :=
  let! f := takum_linear64_to_extended_float t in takum16_from_extended_float f.
(** src/conversion.c:599-603 *)
Definition takum32_from_takum_linear64 (t : Z) : outcome Z :=
  let! f := takum_linear64_to_extended_float t in takum32_from_extended_float f.
(** src/conversion.c:605-609 *)
Definition takum64_from_takum_linear64 (t : Z) : outcome Z :=
  let! f := takum_linear64_to_extended_float t in takum64_from_extended_float f.

End Conversion.
