(** Model of src/codec.c: decoding a takum to its logarithmic value l, the
    "fake l" used for linear takums, and encoding.  No proofs in this file.

    int_fast16_t is at least 16 bits wide; the model treats anything outside
    16 bits as undefined, which is the strictest choice. *)
From Coq Require Import ZArith List Bool.
From Flocq Require Import IEEE754.BinarySingleNaN.
From Verif Require Import CModel FloatModel WidthConv.
Import ListNotations.
Local Open Scope Z_scope.

(** A decimal literal num / 10^k10 rounded to the format by the compiler:
    scaled by 2^300 with a sticky bit, then rounded to nearest even. *)
Definition fdecimal (f : fmt) (num k10 : Z) : flt f :=
  let q := 10 ^ k10 in
  let m := num * 2 ^ 300 / q in
  let sticky := if (num * 2 ^ 300) mod q =? 0 then 0 else 1 in
  fconst f (2 * m + sticky) (- 301).

(** src/codec.c:16-33 *)
Definition c_bias_lut : list Z :=
  [-255; -127; -63; -31; -15; -7; -3; -1; 0; 1; 3; 7; 15; 31; 63; 127].

(** src/codec.c:40-57 *)
Definition p_lut : list Z :=
  [4; 5; 6; 7; 8; 9; 10; 11; 11; 10; 9; 8; 7; 6; 5; 4].

(** src/codec.c:59-81, get_c_and_return_shift: returns (c, shift) *)
Definition get_c_and_return_shift (inp : Z) : outcome (Z * Z) :=
  let! DR := shr_promoted 16 (Z.land inp 0x7800) 11 in
  let! p := lookup p_lut DR in
  let! bias := lookup c_bias_lut DR in
  let! cb := shr_promoted 16 (Z.land inp 0x07ff) p in
  Val (bias + cb, 16 - p).

(** (1 - 2 * (t < 0)) * ((F)c + ldexpF((F)M, -n)) with the int factor
    converted to the floating type *)
Definition signed_cpm {f} (neg : bool) (c M n : Z) : flt f :=
  fmul (fint f (1 - 2 * b2z neg)) (fadd (fint f c) (fldexp (fint f M) (- n))).

(** src/codec.c:83-113 *)
Definition codec_takum8_to_l (t : Z) : outcome (flt f32) :=
  if t =? 0 then Val (fninf f32)
  else if t =? NaR 8 then Val (fnan f32)
  else
    let bits := to_u 8 t in
    let! inp := shl_int bits 8 in
    let! cs := get_c_and_return_shift (to_u 16 inp) in
    let! M := shl_int bits (snd cs) in
    Val (signed_cpm (t <? 0) (fst cs) (to_u 8 M) 8).

(** src/codec.c:115-145 *)
Definition codec_takum16_to_l (t : Z) : outcome (flt f32) :=
  if t =? 0 then Val (fninf f32)
  else if t =? NaR 16 then Val (fnan f32)
  else
    let bits := to_u 16 t in
    let! cs := get_c_and_return_shift bits in
    let! M := shl_int bits (snd cs) in
    Val (signed_cpm (t <? 0) (fst cs) (to_u 16 M) 16).

(** src/codec.c:147-176 *)
Definition codec_takum32_to_l (t : Z) : outcome (flt f64) :=
  if t =? 0 then Val (fninf f64)
  else if t =? NaR 32 then Val (fnan f64)
  else
    let bits := to_u 32 t in
    let! inp := shr_u 32 bits 16 in
    let! cs := get_c_and_return_shift (to_u 16 inp) in
    let! M := shl_u 32 bits (snd cs) in
    Val (signed_cpm (t <? 0) (fst cs) M 32).

(** src/codec.c:178-216; stubbed when LDBL_MANT_DIG < 64 *)
Definition codec_takum64_to_l (pf : platform) (t : Z) : outcome (flt (ld pf)) :=
  if fprec (ld pf) <? 64 then Val (fnan (ld pf))
  else if t =? 0 then Val (fninf (ld pf))
  else if t =? NaR 64 then Val (fnan (ld pf))
  else
    let bits := to_u 64 t in
    let! inp := shr_u 64 bits 48 in
    let! cs := get_c_and_return_shift (to_u 16 inp) in
    let! M := shl_u 64 bits (snd cs) in
    Val (signed_cpm (t <? 0) (fst cs) M 64).

(** src/codec.c:228-267 and 274-314: the common text of
    codec_s_and_linear_l_to_float64 and _to_extended_float up to the final
    long double value; [None] encodes the two early returns (NAN and 0.0). *)
Definition linear_l_to_ld (pf : platform) (s : bool) (l : flt (ld pf))
  : outcome (flt (ld pf)) :=
  let L := ld pf in
  if fisnan l || (fisinf l && fgt l (fzero L)) then Val (fnan L)
  else if fisinf l && flt_ l (fzero L) then Val (fzero L)
  else
    let cpm := if negb s then l else fneg l in
    let! c0 := f2int 16 (ffloor cpm) in
    let m0 := fsub cpm (fint L c0) in
    let c := if feq m0 (fint L 1) then to_s 16 (c0 + 1) else c0 in
    let m := if feq m0 (fint L 1) then fzero L else m0 in
    let e := to_s 16 ((1 - 2 * b2z s) * (c + b2z s)) in
    let h := if negb s then e
             else if feq m (fzero L) then to_s 16 (e + 1) else e in
    let g := if negb s then m
             else if feq m (fzero L) then fzero L else fsub (fint L 1) m in
    Val (fmul (fint L (1 - 2 * b2z s)) (fldexp (fadd (fint L 1) g) h)).

(** src/codec.c:225-269 *)
Definition codec_s_and_linear_l_to_float64 (pf : platform) (s : bool)
  (l : flt (ld pf)) : outcome (flt f64) :=
  let! x := linear_l_to_ld pf s l in Val (fcast f64 x).

(** src/codec.c:271-315 *)
Definition codec_s_and_linear_l_to_extended_float (pf : platform) (s : bool)
  (l : flt (ld pf)) : outcome (flt (ld pf)) :=
  linear_l_to_ld pf s l.

(** src/codec.c:317-335: the loop, [fuel] counts the remaining iterations
    (16 suffice as DR grows up to 15) *)
Fixpoint get_DR_loop (fuel : nat) (c DR : Z) : outcome Z :=
  match fuel with
  | O => Val DR
  | S k =>
      if DR + 1 <? 16 then
        let! b := lookup c_bias_lut (DR + 1) in
        if c <? b then Val DR else get_DR_loop k c (DR + 1)
      else Val DR
  end.
Definition get_DR_from_c (c : Z) : outcome Z :=
  get_DR_loop 16 c (b2z (0 <=? c) * 8).

(** src/codec.c:337-389 (not called by the library) *)
Definition float32_fraction_to_rounded_bits (f : flt f32) (num_bits : Z) : outcome Z :=
  if feq f (fzero f32) || (num_bits =? 0) then Val 0
  else
    let F0 := Z.lor (Z.land (image f) (2 ^ 23 - 1)) (2 ^ 23) in
    let! F1 := shl_u 32 F0 (9 - 1) in
    let q := snd (ffrexp f) in
    let! F2 := if - q <? 32 then shr_u 32 F1 (- q) else Val 0 in
    util_round_uint_to_number_of_bits 32 F2 num_bits.

(** src/codec.c:391-443 *)
Definition float64_fraction_to_rounded_bits (f : flt f64) (num_bits : Z) : outcome Z :=
  if feq f (fzero f64) || (num_bits =? 0) then Val 0
  else
    let F0 := Z.lor (Z.land (image f) (2 ^ 52 - 1)) (2 ^ 52) in
    let! F1 := shl_u 64 F0 (12 - 1) in
    let q := snd (ffrexp f) in
    let! F2 := if - q <? 64 then shr_u 64 F1 (- q) else Val 0 in
    util_round_uint_to_number_of_bits 64 F2 num_bits.

(** src/codec.c:450-480: reading the member "fraction" (resp.
    "sign_exp_fraction") of the packed struct overlaid on the long double;
    the members before it determine its offset. *)
Definition ld_fraction_member (pf : platform) (x : flt (ld pf)) : Z :=
  let off :=
    match ld pf with
    | f80 => if big_endian_struct pf then 0 else 16
    | f128 => if big_endian_struct pf then 16 + 32 else 16
    | _ => 0
    end in
  to_u 64 (image x / 2 ^ off).

(** src/codec.c:445-559 *)
Definition extended_float_fraction_to_rounded_bits (pf : platform)
  (f : flt (ld pf)) (num_bits : Z) : outcome Z :=
  if feq f (fzero (ld pf)) || (num_bits =? 0) then Val 0
  else
    let q0 := snd (ffrexp f) in
    let fr := ld_fraction_member pf f in
    (* codec.c:494-530 *)
    let F1q :=
      match ld pf with
      | f64 => (Z.lor (to_u 64 (Z.land 0x000fffffffffffff fr * 2 ^ 11)) (2 ^ 63), q0 + 1)
      | f80 => (fr, q0)
      | f128 => (Z.lor (fr / 2) (2 ^ 63), q0 + 1)
      | f32 => (0, q0)
      end in
    let q := snd F1q in
    let! F2 := if - q <? 64 then shr_u 64 (fst F1q) (- q) else Val 0 in
    util_round_uint_to_number_of_bits 64 F2 num_bits.

(** src/codec.c:567-620, 622-675 and 677-730:
    codec_linear_l_from_float32/float64/extended_float.  [F] is the format of
    the argument, [G] the one of g, m and the result (double for float32,
    long double for the others). *)
Definition codec_linear_l_from (F G : fmt) (f : flt F) : flt G :=
  if fisnan f || fisinf f then fnan G
  else if feq f (fzero F) then fninf G
  else
    let s := flt_ f (fzero F) in
    let f' := if s then fneg f else f in
    let g0 := fcast G (fst (ffrexp f')) in
    let h0 := snd (ffrexp f') in
    let g := fsub (fmul (fint G 2) g0) (fint G 1) in
    let h := h0 - 1 in
    let c := if negb s then to_s 16 h
             else if feq g (fzero G) then to_s 16 (- h) else to_s 16 (- h - 1) in
    let m := if negb s then g
             else if feq g (fzero G) then fzero G else fsub (fint G 1) g in
    fmul (fint G (1 - 2 * b2z s)) (fadd (fint G c) m).

(** src/codec.c:567-620 *)
Definition codec_linear_l_from_float32 : flt f32 -> flt f64 :=
  codec_linear_l_from f32 f64.
(** src/codec.c:622-675 *)
Definition codec_linear_l_from_float64 (pf : platform) : flt f64 -> flt (ld pf) :=
  codec_linear_l_from f64 (ld pf).
(** src/codec.c:677-730 *)
Definition codec_linear_l_from_extended_float (pf : platform)
  : flt (ld pf) -> flt (ld pf) :=
  codec_linear_l_from (ld pf) (ld pf).

(** src/codec.c:748-769, 804-825, 860-881: the common text of the encoders
    from the special cases to the point where (c, m) is known, in the format
    [F] of cpm and m.  [inl t] is an early return of NaR or 0. *)
Definition encode_cm (F : fmt) (n : Z) (bound : flt F) (s : bool) (l : flt F)
  : outcome (Z + Z * flt F) :=
  if fisnan l || (fisinf l && fgt l (fzero F)) then Val (inl (NaR n))
  else if fisinf l && flt_ l (fzero F) then Val (inl 0)
  else
    let l := if flt_ l (fneg bound) then fneg bound
             else if fgt l bound then bound else l in
    let cpm := fmul (fint F (1 - 2 * b2z s)) l in
    let! c0 := f2int 16 (ffloor cpm) in
    let m0 := fsub cpm (fint F c0) in
    if feq m0 (fint F 1) then
      let! c := s_arith 16 (c0 + 1) in Val (inr (c, fzero F))
    else Val (inr (c0, m0)).

(** src/codec.c:772-792, 828-845, 884-903: the common text of the encoders
    after (c, m); [n] is the width, [extra] what is added to p_lut[DR] and
    [frac] the fraction rounding function. *)
Definition encode_assemble {F : fmt} (n extra : Z) (frac : flt F -> Z -> outcome Z)
  (s : bool) (c : Z) (m : flt F) : outcome Z :=
  let! DR := get_DR_from_c c in
  let! p0 := lookup p_lut DR in
  let p := p0 + extra in
  let! M := frac m p in
  let! bias := lookup c_bias_lut DR in
  let! a := shl_promoted n (b2z s) (n - 1) in
  let! b := shl_promoted n DR (n - 5) in
  let! d := shl_promoted n (to_u n (c - bias)) p in
  Val (to_s n (to_u n (Z.lor (Z.lor a b) d + to_u n M))).

(** src/codec.c:738-792; bound = 254.9375 *)
Definition codec_takum16_from_s_and_l (s : bool) (l : flt f64) : outcome Z :=
  let! r := encode_cm f64 16 (fconst f64 4079 (-4)) s l in
  match r with
  | inl t => Val t
  | inr (c, m) => encode_assemble 16 0 float64_fraction_to_rounded_bits s c m
  end.

(** src/codec.c:794-845; bound = 254.99999904632568359375L *)
Definition bound32 (F : fmt) : flt F := fdecimal F 25499999904632568359375 20.
Definition codec_takum32_from_s_and_l (pf : platform) (s : bool) (l : flt (ld pf))
  : outcome Z :=
  let! r := encode_cm (ld pf) 32 (bound32 (ld pf)) s l in
  match r with
  | inl t => Val t
  | inr (c, m) =>
      encode_assemble 32 16 (extended_float_fraction_to_rounded_bits pf) s c m
  end.

(** src/codec.c:847-910;
    bound = 254.999999999999999777955395074968691915273666381835938L; the
    formats with a stub (neither 53, 64 nor 113 bits) are not platforms here *)
Definition bound64 (F : fmt) : flt F :=
  fdecimal F 254999999999999999777955395074968691915273666381835938 51.
Definition codec_takum64_from_s_and_l (pf : platform) (s : bool) (l : flt (ld pf))
  : outcome Z :=
  let! r := encode_cm (ld pf) 64 (bound64 (ld pf)) s l in
  match r with
  | inl t => Val t
  | inr (c, m) =>
      encode_assemble 64 48 (extended_float_fraction_to_rounded_bits pf) s c m
  end.

(** src/codec.c:732-736: the float argument is converted to long double by
    the call *)
Definition codec_takum8_from_s_and_l (pf : platform) (s : bool) (l : flt f32)
  : outcome Z :=
  let! t := codec_takum32_from_s_and_l pf s (fcast (ld pf) l) in
  takum8_from_takum32 t.
