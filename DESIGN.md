# Formal model of libtakum in Rocq/Coq 8.16

`/repo` is modelled as text; nothing of it is built or run. All Coq sources are in
`rocq/theories` (logical name `Verif`). The list of properties is `properties.jsonl`; what is
proved of each is in `MANIFEST.json`; attempts to fool the theorems with wrong programs are in
`seeded/LOG.jsonl`.

## How to read it

1. The specification: `Spec.v` (what a bit pattern denotes, what "nearest", "faithful" and "saturating" mean),
   `FloatSpec.v` (IEEE rounding), `LibmSpec.v` (what is assumed of the C mathematical library),
   `ConstSpec.v` (which number each constant is named after), `WrapSpec.v` and `WrapSpec2.v` (which real
   function each API function stands for, and its domain), `CalcSpec.v` (expressions, words, lines, what the
   calculator's operators are named after).
2. The model: `CModel.v`, `FloatModel.v`, `Libm.v`, `WidthConv.v`, `Codec.v`, `Conversion.v`, `Arith.v`,
   `Wrappers.v`, `Constants.v`, `Calculator.v`; the API by name in `WidthApi.v`, `LogApi.v`, `LinApi.v`, `WrapApi.v`.
3. The theorems: `Prop*.v`. They contain only theorem statements closed by `exact`, `Print Assumptions`, and an
   `Example` beside each property that shows a concrete case meeting the hypotheses.
4. Everything else is proof.

## The model

| file | content |
|------|---------|
| `CModel.v` | C integers (unsigned and two's complement views, wrap-around), `outcome A := Val a \| UB` in which every partial C operation (shift, table access, float-to-integer conversion, signed arithmetic) is expressed |
| `FloatModel.v` | IEEE formats from Flocq's `BinarySingleNaN`: float (24 bits), double (53), long double (53, 64 or 113, chosen by a platform record); frexp, ldexp, floor, fabs, comparison, casts, the memory image of a long double under both struct layouts |
| `Libm.v` | the mathematical library as a record that is an explicit argument (an oracle); fmod and sqrt are defined |
| `WidthConv.v` | `src/util.c`, takum-to-takum conversions of `src/conversion.c` |
| `Codec.v` | `src/codec.c` |
| `Conversion.v` | the float conversions and the conversions between the two kinds, `src/conversion.c` |
| `Arith.v` | absolute, sign, inversion, precision, multiplication, division, square_root, integer_power, root (logarithmic) |
| `Wrappers.v` | macros of `src/util.h` and every function generated by them: elementary functions, linear arithmetic, functions of two arguments |
| `Constants.v` | the numerical constants of `takum.h` |
| `Calculator.v` | the example program `example/calculator.c` (tokens, operator table, stack, registers, main loop) and `getline` of `example/util.c` |

Executions: all functions of the library are pure; the state of a call is its arguments, the platform
record and the libm oracle. The calculator is a state machine (stack, current type, registers, output, allocations to come);
its executions are sequences of lines. Theorems quantify over all of them.

### Modelling decisions

* An n-bit takum is an integer `t` in `[-2^(n-1), 2^(n-1))` (the C type is `intN_t`); its bits are `t mod 2^n`.
* UB is a distinct outcome. Conversions from unsigned to signed of the same width
  (implementation-defined, via union or cast) wrap, as on every supported compiler.
  `int_fast16_t` is treated as a 16-bit type, the strictest choice.
* Floating point is IEEE 754, round-to-nearest-even, `FLT_EVAL_METHOD = 0`, no traps, a
  single NaN. Constants with an `L` suffix are rounded to long double as the compiler does.
* `log, pow, sin, ...` are oracles. Assumptions on them are hypotheses of the theorems that need them
  (`c99 lm` of `LibmSpec.v`), and `LibmIdeal.v` proves that the library that rounds every result correctly
  meets them. C35 (no undefined behaviour) assumes nothing of the library. `floor, frexp, ldexp, fabs, fmod, sqrt` are exact
  IEEE operations and are defined.
* The main results are for the x86-64 platform (`x86_64 : platform`, 64-bit long double significand, the struct that
  is chosen when `__BYTE_ORDER` is undefined at that point of `codec.c`); other platforms are C36 and C90.
* Calculator: memory is a list of cells that may be uninitialised, accesses out of bounds, uninitialised or through NULL are UB;
  a list of booleans says which of the next malloc/realloc calls succeed (all do once it is exhausted). `strtoll` with base 0 and
  `strtok` are defined after C99 ("C" locale); `strtold` is an arbitrary function of the text (C120 assumes that it reads decimal numbers to 62 bits); `getc` delivers the input and then EOF without read errors;
  BUFSIZ is any number >= 4. Output is a list of events (prompt, result, error message), where the event of a result holds the integer, NaR or the long double that is given to
  printf; the text printf makes of it is specified in `TextSpec.v` and only C120 to C123 speak of it.

### What `c99` assumes of the mathematical library

NaN gives NaN (with the exceptions of pow); inside the domain a relative error of at most 2^(2-p) for log and pow (2 units in the
last place) and 2^(3-p) for the others (4 units), the right sign, and over- and underflow only where the exact result does; NaN
outside of the domain; infinities at poles; the Annex F values at infinities, and of pow, atan2 and hypot in the special cases that can occur.

Two properties need more of the library and say so in their statements: `symmetric` (C78: odd functions are odd and even functions even in floats)
and `monotone` (C79, C80: increasing functions are nondecreasing in floats). `ideal`, the library that rounds the exact result, is proved to meet
`c99`, `symmetric` and `monotone`, so none of the three contradicts itself.

## Properties: what is modelled and how it is proved

| property | theorems in | method |
|----------|-------------|--------|
| C01, C02, C08-C10 | `PropLinear.v` | the decoder is exact in the intermediate format (`DecodeFacts.v`, `LinDec.v`); the last cast is Flocq's rounding; encoder after decoder |
| C03, C04 | `PropWidth.v` | the specified coordinate is a strictly increasing piecewise linear function of the code (`CodeFacts.v`, `SpecFacts.v`) |
| C05-C07 | `PropWidth.v` | shift of the code; rounding is round-half-even of a quotient of integers |
| C11, C13, C14 | `PropLinear.v` | the encoder rounds a nearby coordinate (`PhiFacts.v`, `Machine.v`); composition of monotone maps fixing takums |
| C12, C43 | `PropLinear.v`, `PropExact.v` | refuted (double rounding); error bounds as partial theorems (`NearCode.v`) |
| C15-C18, C38, C39 | `PropLog.v` | sums of coordinates exact or innocuously rounded; distance to ties (`LogFacts.v`, `PowFacts.v`) |
| C19-C25 | `PropLog.v` | arithmetic of the code; halving exact; separation of l/n from ties |
| C26 | `PropNar.v` | propagation through every function, over every `c99` library |
| C27-C29, C47-C49 | `PropLinArith.v` | innocuous double rounding by a gap argument between exact results and half-way points (`LinGap.v`, `LinOps.v`) |
| C30, C52, C53 | `PropLogConv.v`, `PropExact.v` | real analysis of exp/ln with the oracle's error (`LogConv.v`) |
| C31 | `PropBin.v` | result fixers and monotonicity of the codec (`WrapSign.v`) |
| C32, C37, C59-C61 | `PropBin.v` | case analysis over C99 pow; error propagation; refutations |
| C33, C55 | `PropFun.v` | fmod is exact; residues; refutation at negative multiples |
| C34, C56 | `PropFun.v` | domain case analysis (`WrapDom.v`, `WrapTrig.v`); arcoth refuted |
| C35 | `PropTotal.v` | every model function returns `Val` of a takum (or a float) on every input |
| C36 | `PropPlat.v` | refuted: evaluation of the other branches of the codec for a whole interval of floats |
| C40, C50, C51 | `PropConst.v` | verified interval arithmetic with 128 fractional bits (`RealBounds.v`, `ConstFacts.v`); Euler's constant by Euler-Maclaurin from its limit definition (`GammaFacts.v`) |
| C41 | `PropLog.v` | refuted by counterexamples |
| C42 | `PropLog.v` | refuted: negation of the least integer |
| C44, C45 | `PropLinear.v` | refuted by counterexamples |
| C46 | `PropLinArith.v` | refuted by counterexamples |
| C54, C57 | `PropFun.v` | error propagation through the float computations (`FloatAcc.v`, `WrapAcc*.v`); no float is close to a multiple of pi/2, by a continued fraction of 2^63 pi (`TrigGap.v`) |
| C58 | `PropBin.v` | the same for two arguments (`WrapBin.v`) |
| C75 | `PropExact.v` | the coordinate computed is within the errors of C54, C58-C61 of that of a takum, which is nearer than half the gap to the next (`WrapExact.v`) |
| C76 | `PropLogArith.v` | symmetry of float operations under negation (`FloatSym.v`), conversion to long double is strictly increasing since neighbouring coordinates differ by more than its error (`LogAlgebra.v`) |
| C77 | `PropLogArith.v` | refuted: interval bounds for the logarithm of three numbers, the encoder is monotone, so its value at both ends fixes the result (`LogOddRefute.v`); for 8 bits with the correctly rounding library only (`LogOdd8.v`) |
| C78 | `PropSym.v` | negation passes through every float operation, fixer and conversion (`FloatSym.v`, `FunSym.v`, `FunSym2.v`); hypothesis `symmetric lm`, which the correctly rounding library meets |
| C79 | `PropMono.v` | every float operation, conversion and fixer is monotone (`MonoFloat.v`, `MonoConv.v`, `MonoFun.v`), then by cases on the function (`MonoFun2.v`); hypothesis `monotone lm` (`MonoSpec.v`), which the correctly rounding library meets (`MonoIdeal.v`) |
| C80 | `PropMonoBin.v` | as C79, for conversions, logarithmic sums, powers, hypotenuse (`MonoBin.v`), integer powers and roots (`MonoBin2.v`); the integer powers of 8 to 32 bits and logarithmic roots by correct or monotone rounding |
| C62, C63 | `PropKind.v` | composition of C01/C53 and C52/C13; Lipschitz bounds between the two coordinates (`KindConv.v`) |
| C64-C74 | `PropCalc.v` | big-step semantics of postfix expressions against the stack machine, both directions (`CalcEval.v`, `CalcRun.v`); invariants over sessions (`CalcSession.v`); induction over the input (`CalcInput.v`); refutations (`CalcWitness.v`) |
| C81, C82 | `PropCalcLine.v` | every word goes on, ends its line or breaks, by cases on the table of operators; the exact message by simulation of the stack; induction over the words (`CalcLine.v`); specification `CalcLineSpec.v`; C82 refuted |
| C86, C87 | `PropTrip.v` | a number within half a unit of a float rounds to it; error of log, encoding and pow added up (`FloatTrip.v`); C86 refuted: two floats whose takums have logarithms with the same rounding, codes pinned down by interval arithmetic for every library |
| C88, C89 | `PropFaithful.v` | the error of the computation is smaller than the distance of two takums, so the takum nearest to the computed number is one of the two neighbours of the exact one (`Faithful.v`); a faithful rounding never crosses a takum, and the bounds in `RangeSpec.v` are takums (`RangeFacts.v`) |
| C90 | `PropPlat.v` | the proof of C01 with the long double format and the number of digits as parameters (`PlatDec.v`) |
| C91, C92 | `PropRel.v` | inequalities of the real functions by the mean value theorem; a faithful rounding keeps them as the argument is a takum (`RelFacts.v`); two faithful roundings of one number are at most one unit apart (`Agree.v`) |
| C93, C94 | `PropSteps.v` | C93 refuted: double rounding; C94: takums of a width are takums of all larger ones, so neither step crosses one (`WidthSteps.v`) |
| C95–C98 | `PropExactly.v` | doubling a coordinate costs at most one bit of the mantissa, which the regime leaves at 13 bits and more; sums, differences, halves and multiples of coordinates, and products of linear takums, have enough bits in any wider format, so that only the narrowing rounds (`Exactly.v`); C96 refuted by literals |
| C99, C100 | `PropClose.v` | the regime of a difference is larger by at most the number of cancelled bits, so it fits (`Sterbenz.v`; 8 bits by going through all pairs); faithfulness of C88 against a fixed takum, octants from signs of cos and sin shifted by π/4 (`Octant.v`) |
| C101–C104 | `PropError.v` | takums with the exponent of the exact result are 2^-p apart in the coordinate, so a faithful (nearest) result is within 2^-p (2^-(p+1)) of it, and values differ by at most that factor (`ErrorProps.v`, `ErrorApi.v`); sums, products, scalar products and Horner's rule by induction on the list (`Sums.v`, `Horner.v`); the definitions of sums etc. are in `ErrorSpec.v` |
| C105–C108 | `PropTwoSum.v` | the precision of the result differs by at most one bit from that at the exact result (`Posterior.v`, spec in `PosteriorSpec.v`); nearest in the coordinate is nearest in value, the error is a multiple of the spacing of the smaller operand and not larger than it, hence a takum, and s - a is exact by C99 (`TwoSum.v`); C108 by a witness |
| C109, C110 | `PropFormat.v` | the coordinate of a float32 (float64) is exact in the wider formats, so the encoders get the same number (`FormatFree.v`); otherwise both results are faithful; C110 by a witness |
| C111–C113 | `PropInverse.v` | the relative error of the first function is an error of the argument of the second, which the real functions turn into a factor or a summand (`InverseFun.v`, pairs in `InverseSpec.v`); factors 1 + d with |d| <= u (`InverseOps.v`); C113 by witnesses (`InverseRefute.v`) |
| C114–C119 | `PropLists.v` | induction over the list with the sign, range and monotonicity lemmas of one operation (`Lists.v`, vocabulary in `ListSpec.v`); C115: b - a rounds between 0 and b, half of it stays below b - a by more than the rounding error (`Middle.v`); C117: absolute errors below 2 (`Pythagoras.v`); C118: coordinates of different takums differ by 2^-(n-5) at least, whose takum is next to one (`QuotientOne.v`); C116, C119 by witnesses |
| C120–C123 | `PropText.v` | `TextSpec.v` says what %Lg prints and which texts strtold reads; a printed text is a numeral or a decimal number that strtoll refuses (`TextFacts.v`); takums of 16 bits are apart by more than the error of six digits and of the conversions (`TextTrip.v`); registers only hold results and literals (`TextSession.v`); every number has a text (`TextTotal.v`), and a strtold that rounds correctly meets the hypothesis (`TextLibrary.v`); C122 by witness |
| C124, C125 | `PropPlat2.v` | the coordinate of a double is exact in 64 and 113 bits, so it is rounded to double once on every platform, and the encoder of takum16 does not use long double (`PlatArith.v`); C125 by computation on the other platforms |
| C126, C127 | `PropDetour.v` | a double in range is a linear takum64, beyond it both roundings saturate, so narrowing rounds once (`Detour.v`); C127 from C12 |
| C128 | `PropTwoWays.v`, spec `WaySpec.v` | each call is faithful (C88 and the faithful arithmetic); two faithful roundings of one number are neighbours, and of ordered numbers ordered up to one (`TwoWays.v`) |
| C129, C130, C131 | `PropRecip.v` | the rounding of a logarithmic value is odd, so it commutes with inversion (`LogRecip.v`); signs of products from faithfulness and C18/C29 (`AbsSign.v`); C130 by a witness |
| C132, C133 | `PropDistance.v` | monotonicity and sign symmetry of linear addition and subtraction (`Distance.v`); C133 by witnesses |
| C134, C135, C136 | `TreeSpec.v`, `PropTrees.v` | induction over bracketings with the errors of single operations from C101 (`Trees.v`); C136 by witnesses at every width |
| C137 | `CompSpec.v`, `PropComputations.v` | induction over the computation; every step changes the logarithm of the relative error by at most v (`Computations.v`), with the errors of single operations from C101 and C128 |
| C138 | `TestHarness.v`, `HarnessSpec.v`, `PropHarness.v` | the step is linear over GF(2); powers of its matrix are computed by the kernel, the order follows from the prime factors of 2^n-1 and all states are reached by counting (`Lfsr.v`, `GeneratorFacts.v`) |
| C139, C140, C141 | `TestHarness.v`, `HarnessSpec.v`, `PropHarness.v` | invariants of the six modes of the sampler (`SamplerModes.v`); C141 by the common period of the operands |
| C142, C143, C144, C145 | `TestHarness.v`, `HarnessSpec.v`, `PropHarness.v` | induction over the run of the loop (`HarnessResults.v`); witnesses for the refutations |
| C146 | `TestBlocks.v`, `TestBlocksSpec.v`, `PropTestBlocks.v` | the round trips of C08, C09 and C30 and one for `to_l`/`from_s_and_l` (from `Machine.v`), with the verdict of C142 and the termination of C139 (`TestBlocksProofs.v`) |
| C147, C148, C149, C150, C151 | `TestPrograms.v`, `TestBlocksSpec.v`, `PropTestPrograms.v` | the result of the library and the converted reference are both faithful roundings of numbers that are close, hence differ by at most one (`TestProgramsProofs.v`, `TestProgramsLog.v`); conversion to long double and back is the identity (`TestProgramsMisc.v`); takum64 missing in C148; C151 refuted by the sequence 1, ... of rand() |
| C152 | `TestFunctions.v`, `TestBlocksSpec.v`, `PropTestFunctions.v` | the replacement of over- and underflowing results is the identity for these functions, so that all types computed in long double agree with the reference; for the linear types of at most 32 bits both are faithful roundings of the same real number or both are NaR (`TestFunctionsProofs.v`) |
| C153 | `TestBinary.v`, `TestBlocksSpec.v`, `PropTestBinary.v` | as C152, with the error bounds of hypot and atan2 (`TestBinaryProofs.v`) |
| C154 | `TestExponentials.v`, `TestBlocksSpec.v`, `PropTestExponentials.v` | the branches for over- and underflow agree with the corrections the library makes, as conversion saturates beyond 2^600 and below 2^-600; then as C152 (`TestExponentialsProofs.v`). Partial: without 2_raised_minus_1 and 10_raised_minus_1. Trusted: that expl etc. raise FE_OVERFLOW exactly when the result is infinite, FE_UNDERFLOW if a function without zeros returns 0, and that the conversion of a takum to long double raises neither |
| C83, C84 | `PropCalcLine.v` | digits of strtoll by induction in any base (`CalcNumeral.v`); C84 refuted |
| C85 | `PropCalcLine.v` | induction over the input; a newline at the end of a line does not change its words (`CalcNumeral.v`) |

A claim that is false of the code has its own id with status `partial`, a theorem named `..._refuted` that proves its
negation for the model with a witness, and where something weaker holds a separate proved property or a `_partial` theorem.

## Where the code disagrees with what a user would expect

These are findings about the code, each backed by a theorem.

* C12, C43: float to linear takum8/16 and long double to any linear takum round twice; near ties the result is not the nearest takum (it is still a neighbour, C13).
* C32: `power` does not return NaR for 0^0, NaR^0 and 1^NaR, as the man page says; it inherits C99's pow.
* C36: with a 53-bit or 113-bit long double, `codec.c` shifts by -1 for about every other argument and otherwise doubles the fraction (5/4 becomes 3/2); with 53 bits takum64 decodes to NaN only; with the little-endian struct branch the wrong bytes of an 80-bit long double are read.
* C37: `takum_linearN_root` of a negative number is NaR for odd n (other than 1 and -1), whereas `takumN_root` gives the real root.
* C41: takum64 multiplication and division round twice.
* C42: `takum32_absolute` etc. negate the least integer for NaR, which is undefined behaviour.
* C44: linear takum64 to float32 goes through double.
* C45: long double to linear takum16 is not odd.
* C46: linear arithmetic at 32 bits (multiplication, division, inversion, square root) and 64 bits (addition) is not correctly rounded.
* C50: `TAKUM64_6_PI` and `TAKUM64_6_PI_OVER_5` are one unit in the last place too large.
* C55: sin_pi_times etc. are not exact at negative half-integers, since C's fmod keeps the sign.
* C56: `takum_linear64_arcoth` calls `atanh` instead of `atanhl`; it is NaR for numbers next to 1 where arcoth is defined. `arcsch` calls `asinh` in the same way (only accuracy suffers, within the bound of C54).
* C57: `2_raised_minus_1` and `10_raised_minus_1` subtract 1 from the power and lose all accuracy near 0.
* C68: the calculator converts results of linear types to `int64_t` without a range check, undefined for NaR (e.g. `1 0 /`) and numbers beyond 2^63; `abs` of NaR negates the least integer.
* C70: an integer literal is printed as typed even where the stored takum is another number (`100` in takum_linear8).
* C72: literals from 2^63-1 on are NaR but those below -2^63 become -2^63.
* C77: long double to logarithmic takums is not odd (8 bits shown for the correctly rounding library, the others for every library within c99): the coordinate is rounded to long double once more for one sign only. Hence (-a) + (-b) is not claimed to be -(a + b) for them.
* C82: a root whose degree is not known to be an integer (`2 2.5 root`) ends the line without a value or a message.
* C84: `strtoll` is called with base 0, so the calculator reads `010` as 8.
* C86: `takum64_to_float32` and `takum64_to_float64` round the logarithm to the format of the result before calling pow, so that 3 and the next double, different as logarithmic takum64, come back as the same double.
* C93: narrowing via an intermediate width rounds twice, so that 0x40800001 becomes 0x40 in two steps and 0x41 in one.
* C96: sqrt(x*x) = |x| fails for takum8 (0x59 gives 0x58) and for linear takums just above sqrt 2 at every width; it holds for logarithmic takums of 16, 32 and 64 bits (C95).
* C108: b - (s - a) is not the error of s = a + b for linear takums with |b| <= |a| if s exceeds 2|a| (2 - 2^-11 added to itself); this is a limit of the format, not of the code. It holds otherwise (C107).
* C110: `takum_linear16_from_float32` casts the coordinate to float, `takum_linear16_from_float64` to double, so that the same number (0x820001 * 2^77) gives 0x74a0 from a float32 and 0x74a1 from a float64.
* C113: for linear takums 1/(1/x), (x*y)/y and even (x+x)/2 need not be x, because the intermediate result can have fewer fraction bits (x = 2 - 15/2^11 for the mean); this is a limit of the format. The error is bounded by C112.
* C116: a + (b - a) / 2 can lie outside [a, b] for linear takums near the ends of the dynamic range (a = 1, b = 2 as 16-bit patterns give 17).
* C119: for linear takums of 32 and 64 bits, a/b can be one although a is larger than b (2 / (2 - 2^-27) in 32 bits), so a/b == 1 is no test for equality.
* C122: the calculator prints six digits, which do not identify a takum of 32 or 64 bits (8388609 8388608 / is printed as 1), and prints NaR but does not accept it as input.
* C125: on platforms other than x86-64, takum8_multiplication(1, x) and takum_linear8_addition(x, 0) are not x and can be undefined: the fault of C36 reaches the arithmetic of all widths but 16 bits.
* C127: the direct conversions to linear takum8 and 16 round twice; going through linear takum64 and narrowing is correctly rounded (C126).
* C130: the 21st roots of a = 0x4000000000000035 and of 1/a (takum64) are not reciprocals of each other: the encoder truncates the fraction to 64 bits before it rounds, and truncation is not symmetric. Narrower takums are not affected (C129).
* C133: the triangle inequality for |a - b| fails by one unit in the last place (rounding), with 1, -d and -2d.
* C136: addition and multiplication are not associative and multiplication is not distributive, with operands between -1 and 2, at every width and for both kinds (rounding).
* C141: the pairs of the random binary tests repeat after 2^n-1 samples: 98 % of the 2^22 tests of 16 bit pairs are repetitions.
* C143: the tolerance of one accepts the smallest real where NaR is expected.
* C144: the comparison overflows for 64 bit takums if NaR or the largest takum is expected and something else is returned.
* C145: the sampler does not end for a list of integers with duplicates (none in test/).
* C151: `test/absolute.c` has undefined behaviour when the sampler chooses NaR for 32 or 64 bits.
* C74: `stack_push` loses the stack and counts the capacity up when realloc fails, and the next push writes through NULL.

## Trusted base

* Coq 8.16.1's kernel (`coqc`; `coqchk` was run over all files as well).
* Axioms: those listed by `Print Assumptions` beneath each theorem. They all come from the standard library:
  `ClassicalDedekindReals.sig_forall_dec`, `ClassicalDedekindReals.sig_not_dec`,
  `FunctionalExtensionality.functional_extensionality_dep` (all three through the reals) and `Classical_Prop.classic` (through Flocq and real analysis).
  Exactly these four are listed for every theorem of `Prop*.v` except the following.
  Closed under the global context: `C73_reading_safe`, `C19_inversion_reverses_order`, `C23_absolute_of_nar_8_16`, `C42_absolute_of_nar_32_64_refuted`, `C25_precision_counts_mantissa_bits`, `C25_precision_of_special_values`, `C25_special_precision_is_worst`, `C93_narrowing_in_two_steps_refuted`, `C05_widening_preserves_order`.
  Only `functional_extensionality_dep`, `sig_forall_dec`, `sig_not_dec`: `C19_inversion_lossless`, `C23_absolute_of_number`, `C03_nar_is_least`, `C04_integer_negation_negates`, `C05_widening_lossless`.
  Only `functional_extensionality_dep`, `sig_forall_dec`: `C19_inversion_involutive`, `C25_precision_is_spacing`, `C07_narrowing_monotone`, `C07_narrowing_odd`.
* The definitions of `Spec.v`, `FloatSpec.v`, `LibmSpec.v`, `ConstSpec.v`, `WrapSpec.v`, `WrapSpec2.v`, `CalcSpec.v`, `CalcLineSpec.v`, `TextSpec.v`, `ListSpec.v`, `MonoSpec.v`, `RangeSpec.v`, `PlatSpec.v` say what the English says.
* The correspondence between model and C text (checked by reading; every definition cites file and lines).
* Flocq's definitions of binary floats as IEEE 754, and the floating-point and platform assumptions above.

## Not modelled

* Of the test suite the printed texts, and the programs for other functions than those of C146-C154 (the branches of `evaluate_reference_function` for FE_OVERFLOW and FE_UNDERFLOW are modelled for C154 only; the other programs modelled do not take them); the sampler, the comparison and the loop of `test/util.c` are modelled in `TestHarness.v`, with rand() as an oracle, and the test programs `test/codec.c` and `test/conversion.c` in `TestBlocks.v`, nine programs with a reference in long double in `TestPrograms.v`, and the programs for the elementary functions that cannot over- or underflow in `TestFunctions.v` and `TestBinary.v`, and most of those that can in `TestExponentials.v`. The build system, of the calculator the help text, and printf and strtold except for their specification in `TextSpec.v`; the man pages and `takum.h`'s
  documentation only serve as the source of the documented claims.
* Floating-point exception flags, errno, rounding modes other than to nearest, signalling NaNs and NaN payloads.
* Other platforms than x86-64, except in C36 and C90.
