{"id": "C01", "title": "Linear takum to float is exact", "statement": "takum_linear8/16/32_to_float64, takum_linear8/16/32_to_extended_float and takum_linear64_to_extended_float return exactly the real number denoted by the bit pattern (linear takum definition ((1-3S)+f)*2^e); 0 gives +0 and NaR gives NaN.", "quantifier": "every bit pattern of every width", "why_tests_cant": "sampled tests visit at most 2^22 of the 2^32/2^64 bit patterns; exactness is about every pattern", "anchors": ["src/conversion.c:takum_linear*_to_float64", "src/conversion.c:takum_linear*_to_extended_float", "src/codec.c:codec_s_and_linear_l_to_float64", "src/codec.c:codec_takum64_to_l"]}
{"id": "C02", "title": "Linear takum to narrower float is correctly rounded", "statement": "takum_linear64_to_float64 is the IEEE round-to-nearest-even double of the denoted value, and takum_linear8/16/32_to_float32 the round-to-nearest-even float (overflowing to infinity and underflowing as IEEE prescribes).", "quantifier": "every bit pattern", "why_tests_cant": "sampled tests visit at most 2^22 of the 2^32/2^64 bit patterns; ties and double roundings are isolated points", "anchors": ["src/conversion.c:takum_linear64_to_float64", "src/conversion.c:takum_linear*_to_float32"]}
{"id": "C03", "title": "Integer comparison is numeric comparison", "statement": "For two takums of the same kind and width, comparing them as signed integers (<, ==) gives the same answer as comparing the real numbers they denote, and NaR is equal to itself and smaller than every other takum.", "quantifier": "all pairs of bit patterns, all widths, logarithmic and linear", "why_tests_cant": "2^128 pairs for 64 bit", "anchors": ["takum.h", "man/libtakum.sh", "src/codec.c:codec_takum*_to_l"]}
{"id": "C04", "title": "Integer negation negates the number", "statement": "Negating a takum as an integer (two's complement) denotes the negated real number; 0 and NaR are fixed points.", "quantifier": "every bit pattern, every width, both kinds", "why_tests_cant": "sampled tests visit at most 2^22 of the 2^32/2^64 bit patterns; needs all", "anchors": ["takum.h", "man/libtakum.sh", "src/codec.c:codec_takum*_to_l"]}
{"id": "C05", "title": "Widening is lossless", "statement": "takumM_from_takumN with M>N (and the linear versions) return a takum denoting the same real number; 0 to 0, NaR to NaR.", "quantifier": "every source bit pattern, all 12 widening functions", "why_tests_cant": "sampled tests visit at most 2^22 of the 2^32/2^64 bit patterns; 2^32 sources", "anchors": ["src/conversion.c:TAKUM_INTERNAL_CONVERT_EXPAND"]}
{"id": "C06", "title": "Narrowing rounds to nearest with ties to even and saturates", "statement": "takumM_from_takumN with M<N returns the M-bit takum of the same sign whose logarithmic value (for linear takums: its exponent coordinate) is nearest to that of the argument, ties to the even bit pattern; a nonzero real never becomes 0 or NaR; 0 to 0; NaR to NaR.", "quantifier": "every source bit pattern, all 12 narrowing functions", "why_tests_cant": "ties and saturation are isolated points among 2^64", "anchors": ["src/conversion.c:TAKUM_INTERNAL_CONVERT_REDUCE", "src/util.c:util_round_uint##N##_to_number_of_bits"]}
{"id": "C07", "title": "Narrowing inverts widening, is monotone and odd", "statement": "Narrowing after widening is the identity; narrowing preserves <=; narrowing commutes with negation; narrowing to 0/NaR only happens for 0/NaR.", "quantifier": "all bit patterns and pairs", "why_tests_cant": "sampled tests visit at most 2^22 of the 2^32/2^64 bit patterns; pairs", "anchors": ["src/conversion.c:TAKUM_INTERNAL_CONVERT_REDUCE", "src/conversion.c:TAKUM_INTERNAL_CONVERT_EXPAND"]}
{"id": "C08", "title": "Linear takum survives a trip through float", "statement": "takum_linearN_from_float64(takum_linearN_to_float64(t)) = t for N=8,16,32, and takum_linearN_from_extended_float(takum_linearN_to_extended_float(t)) = t for N=8,16,32,64.", "quantifier": "every bit pattern", "why_tests_cant": "sampled tests visit at most 2^22 of the 2^32/2^64 bit patterns; one bad pattern is enough", "anchors": ["src/conversion.c:takum_linear*_from_float64", "src/conversion.c:takum_linear*_from_extended_float"]}
{"id": "C09", "title": "float64 survives a trip through linear takum64", "statement": "For every double f with 2^-255 < |f| < 2^255 converting to takum_linear64 and back to float64 gives f.", "quantifier": "every double", "why_tests_cant": "2^64 doubles", "anchors": ["src/conversion.c:takum_linear64_from_float64", "src/conversion.c:takum_linear64_to_float64", "src/codec.c:codec_linear_l_from_float64"]}
{"id": "C10", "title": "Special floats map to the special linear takums and nothing else does", "statement": "For all takum_linearN_from_float32/float64/extended_float conversions: +-0 gives 0, NaN and +-inf give NaR, and a finite nonzero float gives neither 0 nor NaR and keeps its sign.", "quantifier": "every float of each format", "why_tests_cant": "every float incl. subnormals and extreme exponents", "anchors": ["src/conversion.c:takum*_from_float*", "src/codec.c:codec_takum*_from_s_and_l"]}
{"id": "C11", "title": "Float to linear takum32/64 is correctly rounded", "statement": "takum_linear32_from_float32/float64 and takum_linear64_from_float32/float64 return the nearest linear takum (ties to even pattern, saturating).", "quantifier": "every finite nonzero float32/float64", "why_tests_cant": "2^64 inputs; errors sit at ties", "anchors": ["src/conversion.c:takum_linear32_from_float64", "src/conversion.c:takum_linear64_from_float64"]}
{"id": "C12", "title": "Float to linear takum8/16 is correctly rounded", "statement": "takum_linear8/16_from_float32/float64 return the nearest linear takum (ties to even pattern, saturating). (Does not hold near ties; what holds is stated in C13 and in the partial theorem.)", "quantifier": "every finite nonzero float32/float64", "why_tests_cant": "errors sit next to ties, never hit by uniform sampling", "anchors": ["src/conversion.c:takum_linear8_from_float64", "src/conversion.c:takum_linear16_from_float32"]}
{"id": "C13", "title": "Float to linear takum is monotone", "statement": "If f1 <= f2 are not NaN/inf then takum_linearN_from_F(f1) <= takum_linearN_from_F(f2) as integers; the result is one of the two linear takums bracketing f (faithful rounding).", "quantifier": "all pairs of finite floats, all N and all source formats", "why_tests_cant": "pairs of 2^64/2^80 inputs", "anchors": ["src/conversion.c:takum_linear*_from_*"]}
{"id": "C14", "title": "Float to linear takum is odd", "statement": "takum_linearN_from_F(-f) = -takum_linearN_from_F(f) for all widths N and float formats F except N=16 with F=extended_float (see C45).", "quantifier": "every finite float of every format, the 11 functions", "why_tests_cant": "every float", "anchors": ["src/conversion.c:takum_linear*_from_*", "src/codec.c:codec_linear_l_from_*"]}
{"id": "C15", "title": "Logarithmic multiplication is correctly rounded (8,16,32)", "statement": "takum8/16/32_multiplication(a,b) for nonzero reals a,b is the takum with the sign of the product whose logarithmic value is nearest to that of the exact product (ties to even pattern, saturating); NaR if any argument is NaR; otherwise 0 if any argument is 0.", "quantifier": "all pairs", "why_tests_cant": "2^64 pairs at 32 bit", "anchors": ["src/multiplication.c:takum*_multiplication"]}
{"id": "C16", "title": "Logarithmic division is correctly rounded (8,16,32)", "statement": "takum8/16/32_division(a,b) likewise for the quotient; NaR if b is 0 or any argument is NaR; 0 if only a is 0.", "quantifier": "all pairs", "why_tests_cant": "2^64 pairs", "anchors": ["src/division.c:takum*_division"]}
{"id": "C17", "title": "takum64 multiplication and division are faithful", "statement": "takum64_multiplication/division return one of the two takum64 bracketing the exact product/quotient, and it itself if it is a takum; the result is the correct rounding of a number whose logarithmic value has relative error at most 2^-64.", "quantifier": "all pairs", "why_tests_cant": "2^128 pairs; failures need sums with more than 64 significant bits next to a tie", "anchors": ["src/multiplication.c:takum64_multiplication", "src/division.c:takum64_division"]}
{"id": "C18", "title": "Multiplicative algebra of logarithmic takums", "statement": "multiplication is commutative; TAKUM_ONE is its neutral element; (-a)*b = -(a*b); a/TAKUM_ONE = a; a/a = 1 for nonzero reals; a*inversion(a) = 1; 0 and NaR annihilate; all widths.", "quantifier": "all pairs, all widths", "why_tests_cant": "pairs of 64-bit patterns", "anchors": ["src/multiplication.c", "src/division.c", "src/inversion.c"]}
{"id": "C19", "title": "Logarithmic inversion is lossless", "statement": "takumN_inversion(t) denotes exactly 1/value(t) for every nonzero real; inversion(0)=inversion(NaR)=NaR; inversion is an involution on nonzero reals and reverses order of same-sign numbers.", "quantifier": "every bit pattern", "why_tests_cant": "sampled tests visit at most 2^22 of the 2^32/2^64 bit patterns; every pattern", "anchors": ["src/inversion.c:takum*_inversion", "man/libtakum.sh"]}
{"id": "C20", "title": "Logarithmic square root is correctly rounded", "statement": "takumN_square_root(t) is the nearest takum (ties to even) to sqrt(value(t)) for every positive t at all widths; 0 gives 0; negative and NaR give NaR.", "quantifier": "every bit pattern", "why_tests_cant": "sampled tests visit at most 2^22 of the 2^32/2^64 bit patterns; ties occur for every odd pattern", "anchors": ["src/square_root.c:takum*_square_root"]}
{"id": "C21", "title": "Logarithmic integer power is correctly rounded (8,16,32)", "statement": "takum8/16/32_integer_power(t,n) is the nearest takum to value(t)^n for every nonzero real t and every int64 n, saturating; sign negative iff t<0 and n odd; NaR if t is NaR or t is 0 and n<=0; 0 if t is 0 and n>0.", "quantifier": "all t, all int64 n", "why_tests_cant": "2^64 exponents; (float)n is inexact for large n", "anchors": ["src/integer_power.c:takum*_integer_power"]}
{"id": "C22", "title": "Logarithmic root is correctly rounded (8,16,32)", "statement": "takum8/16/32_root(t,n) is the nearest takum to the real n-th root; NaR iff t is NaR, n = 0, t<0 with n even, or t = 0 with n<0. takum64_root returns one of the two takums bracketing the root, with the same NaR cases.", "quantifier": "all t, all int64 n", "why_tests_cant": "2^64 divisors; double rounding needs number-theoretic separation", "anchors": ["src/root.c:takum*_root"]}
{"id": "C23", "title": "Absolute value", "statement": "takumN_absolute(t) and takum_linearN_absolute(t) denote |value(t)| for every t other than NaR; at 8 and 16 bits NaR gives NaR.", "quantifier": "every bit pattern, both kinds", "why_tests_cant": "UB is invisible to a test that happens to see the wrapped value", "anchors": ["src/absolute.c"]}
{"id": "C24", "title": "Sign", "statement": "takumN_sign(t) denotes the sign (-1, 0, 1) of value(t); NaR gives NaR.", "quantifier": "every bit pattern, both kinds", "why_tests_cant": "sampled tests visit at most 2^22 of the 2^32/2^64 bit patterns; all", "anchors": ["src/sign.c"]}
{"id": "C25", "title": "Precision is the number of mantissa bits", "statement": "takumN_precision(t) is the number of explicit mantissa bits: for n>=16 the logarithmic values (linear: exponent coordinates) of t and its integer successor differ by exactly 2^-precision(t); 0 and NaR report the worst case.", "quantifier": "every bit pattern", "why_tests_cant": "sampled tests visit at most 2^22 of the 2^32/2^64 bit patterns; all", "anchors": ["src/precision.c"]}
{"id": "C26", "title": "NaR propagates", "statement": "With a C99-conforming libm every function of the API with a NaR argument returns NaR (man page: by convention): all functions of one takum, all conversions between widths and formats, all functions of two takums except power (see C32), integer powers and roots. Conversion of NaR to a float gives NaN, of NaN and the infinities gives NaR.", "quantifier": "every function, every other argument, every libm satisfying the C99 NaN rules", "why_tests_cant": "all second arguments", "anchors": ["man/libtakum.sh", "src/util.h", "src/*.c"]}
{"id": "C27", "title": "Linear addition and subtraction are correctly rounded (8,16,32)", "statement": "takum_linear8/16/32_addition/subtraction(a,b) return the linear takum nearest to the exact sum/difference (ties to even, saturating); linear64 returns one of the two bracketing takums.", "quantifier": "all pairs", "why_tests_cant": "2^64 pairs; double rounding", "anchors": ["src/addition.c", "src/subtraction.c", "src/util.h:UTIL_BINARY_FLOAT_TAKUM_LINEAR_WRAPPER"]}
{"id": "C28", "title": "Linear multiplication and division are correctly rounded (8,16)", "statement": "takum_linear8/16_multiplication/division return the linear takum nearest to the exact result (ties to even, saturating), division by 0 is NaR; linear32/64 return one of the two bracketing takums.", "quantifier": "all pairs", "why_tests_cant": "2^32 pairs at 16 bit and 2^128 at 64", "anchors": ["src/multiplication.c", "src/division.c"]}
{"id": "C29", "title": "Algebra of linear takum arithmetic", "statement": "addition and multiplication commute; a+0=a, a-0=a, a*1=a, a/1=a (NaR included), a-a=0, a+(-a)=0, a-b=a+(-b), 0*a=0, a/a=1 and 0/a=0 for nonzero reals; (-a)+(-b)=-(a+b), b-a=-(a-b), (-a)*b=-(a*b), (-a)/b=a/(-b)=-(a/b), 1/(-a)=-(1/a); all widths.", "quantifier": "all pairs, all widths", "why_tests_cant": "pairs of 64-bit patterns", "anchors": ["src/addition.c", "src/subtraction.c", "src/multiplication.c", "src/division.c"]}
{"id": "C30", "title": "Logarithmic takum survives a trip through float", "statement": "takumN_from_F(takumN_to_F(t)) = t for every float format F whose precision is at least N bits (extended_float for all widths, float64 for N <= 32, float32 for N <= 16 and takums in its range), for any libm whose pow and log err by at most 2 units in the last place.", "quantifier": "every bit pattern, every libm meeting the C99 rules and the error bound", "why_tests_cant": "libm errors differ per platform; 2^64 patterns", "anchors": ["src/conversion.c:takum*_to_extended_float", "src/conversion.c:takum*_from_extended_float", "src/util.h:SQRTE"]}
{"id": "C31", "title": "Results saturate instead of vanishing", "statement": "For every argument other than NaR exp, 2_raised, 10_raised, cosh, sech, arccot and arccot_over_pi give a positive takum, hypotenuse a nonnegative one that is 0 only for (0,0), and power with a positive base a positive takum; sinh, tanh, coth, csch, arsinh, artanh, arcsch, arctan, arcsin, exp_minus_1, ln_1_plus and the like give, where they are defined, a takum other than NaR with the sign of the argument. Over- and underflow of the floats inside never shows, for any libm with the C99 conventions.", "quantifier": "every argument, every libm within C99 rules", "why_tests_cant": "over-/underflow thresholds depend on libm and format", "anchors": ["src/exp.c", "src/2_raised.c", "src/10_raised.c", "src/hypotenuse.c", "src/power.c", "src/sinh.c", "src/cosh.c"]}
{"id": "C32", "title": "Power conventions", "statement": "power(a,b) is NaR if a is 0 and b <= 0 and whenever a or b is NaR (man pages). (False: x^0 and 1^x are 1, also for 0^0, NaR^0 and 1^NaR. What holds is C59.)", "quantifier": "all pairs", "why_tests_cant": "all second arguments", "anchors": ["src/power.c", "man/takum8_power.sh"]}
{"id": "C33", "title": "pi-multiple trigonometric functions are exact at multiples of 1/2", "statement": "At every multiple x >= 0 of 1/2 (and at negative multiples of 2; of 1 for tan and cot) sin_pi_times, cos_pi_times, tan_pi_times, cot_pi_times, sec_pi_times and csc_pi_times of a linear takum are the takum of exactly sin(pi x), cos(pi x), ... (0, 1 or -1), and NaR at the poles, whatever the math library returns; the same for the logarithmic takums 0 and 1.", "quantifier": "every takum that is such a multiple, every width, every libm", "why_tests_cant": "infinitely many zeros and poles", "anchors": ["src/sin.c:UTIL_UNARY_FLOAT_TAKUM_WRAPPER", "takum.h:takum16_sin_pi_times", "src/cos.c:UTIL_UNARY_FLOAT_TAKUM_WRAPPER", "takum.h:takum16_cos_pi_times", "src/tan.c:UTIL_UNARY_FLOAT_TAKUM_WRAPPER", "takum.h:takum16_tan_pi_times", "src/csc.c:UTIL_UNARY_FLOAT_TAKUM_WRAPPER", "takum.h:takum16_csc_pi_times"]}
{"id": "C34", "title": "NaR exactly outside of the domain", "statement": "The result of a function of one argument at a real argument x is NaR if and only if the function is not defined at x. For logarithmic takums this covers the functions that are not trigonometric, and sin, cos, tan, cot, sec and csc, which give NaR only at 0 (cot, csc). For takums with a linear significand it covers all functions, the functions of pi times x for x >= 0 (at negative poles see C55; NaR is never returned where the function is defined). For arcoth at 64 bits only 'if' holds, see C56.", "quantifier": "every argument, both kinds, every width, every libm with C99 domain behaviour", "why_tests_cant": "domain edges need all arguments near the edge", "anchors": ["src/arcoth.c", "src/cot.c", "src/csc.c", "src/lb.c", "src/lg.c", "src/ln.c", "src/sec.c", "src/tan.c"]}
{"id": "C35", "title": "No undefined behaviour", "statement": "On the supported platform (80-bit long double) every function from takums, floats and int64_t to takums and floats is free of undefined behaviour for every input, whatever the math library returns: no out-of-range shift, table index, float-to-integer conversion or signed overflow, and the result is in range. (The exception, the absolute value of NaR at 32 and 64 bits, is C42.)", "quantifier": "every input of every function, every result of the math library", "why_tests_cant": "UB need not show up in a run", "anchors": ["src/codec.c", "src/conversion.c", "src/util.c"]}
{"id": "C36", "title": "Portability over long double formats", "statement": "Encoding works on the three long double formats the code has branches for (53, 64 and 113 bit), and for both struct layouts. (False: with 53 or 113 bits a shift by -1 is reached; with 64 bits and the other struct layout the wrong bytes are read.)", "quantifier": "three formats, both struct layouts, all l", "why_tests_cant": "needs three kinds of hardware", "anchors": ["src/codec.c:extended_float_fraction_to_rounded_bits"]}
{"id": "C37", "title": "Linear roots of negative numbers", "statement": "takum_linearN_root(t,n) for t<0 and odd n is the (negative) real root, as takumN_root gives. (False: it is NaR for every such t and every odd n other than 1 and -1.)", "quantifier": "all t<0, all odd n", "why_tests_cant": "tests only use n in {-100,-10,-1,0,1,10,100}", "anchors": ["src/root.c:takum_linear*_root", "man/takum_linear8_root.sh"]}
{"id": "C38", "title": "Monotonicity of logarithmic arithmetic", "statement": "Multiplication and division by a positive takum, square_root, odd positive integer_power (8,16,32), odd positive root and inversion preserve (inversion: reverse) order at every width.", "quantifier": "all pairs/triples", "why_tests_cant": "triples of 64-bit patterns", "anchors": ["src/multiplication.c", "src/division.c", "src/square_root.c", "src/integer_power.c"]}
{"id": "C39", "title": "Power identities", "statement": "integer_power(t,1)=t, integer_power(t,0)=1, integer_power(t,-1)=inversion(t), integer_power(t,2)=multiplication(t,t), root(t,1)=t, root(t,2)=square_root(t), root(t,-1)=inversion(t) for nonzero reals (8,16,32; roots at all widths).", "quantifier": "every nonzero real takum", "why_tests_cant": "sampled tests visit at most 2^22 of the 2^32/2^64 bit patterns; all", "anchors": ["src/integer_power.c", "src/root.c", "src/square_root.c"]}
{"id": "C40", "title": "Predefined constants are correctly rounded", "statement": "Every predefined TAKUM*_* and TAKUM_LINEAR*_* numerical constant of takum.h (36 names, 8 formats: multiples of pi, Euler's constant, logarithms, golden ratio, square roots) is the takum nearest to the number it is named after, ties to even - except TAKUM64_6_PI and TAKUM64_6_PI_OVER_5.", "quantifier": "all 36 names, both formats, all four widths; nearest among all takums of the format", "why_tests_cant": "the test suite does not know the real numbers; nearness to a transcendental number needs proved bounds", "anchors": ["takum.h"]}
{"id": "C41", "title": "takum64 multiplication and division are correctly rounded", "statement": "takum64_multiplication/division return the takum64 whose logarithmic value is nearest to that of the exact product/quotient (ties to even).", "quantifier": "all pairs of takum64", "why_tests_cant": "2^128 pairs; failures need sums with more than 64 significant bits next to a tie", "anchors": ["src/multiplication.c:takum64_multiplication", "src/division.c:takum64_division"]}
{"id": "C42", "title": "Absolute value of NaR at 32 and 64 bits", "statement": "takum32/64_absolute(NaR) and takum_linear32/64_absolute(NaR) return NaR without undefined behaviour.", "quantifier": "the NaR pattern, both kinds, 32 and 64 bits", "why_tests_cant": "signed overflow is undefined: a test sees whatever the compiler happens to produce", "anchors": ["src/absolute.c"]}
{"id": "C43", "title": "long double to linear takum is correctly rounded", "statement": "takum_linearN_from_extended_float returns the nearest linear takum (ties to even pattern, saturating).", "quantifier": "every finite nonzero long double", "why_tests_cant": "2^80 inputs; the failures are at isolated points next to ties", "anchors": ["src/conversion.c: takum_linear*_from_float*", "src/codec.c"]}
{"id": "C44", "title": "Linear takum64 to float32 is correctly rounded", "statement": "takum_linear64_to_float32 is the IEEE round-to-nearest-even float of the denoted value.", "quantifier": "every 64-bit pattern", "why_tests_cant": "2^64 inputs; fails only where rounding to float64 first hits a float32 tie", "anchors": ["src/conversion.c:takum_linear64_to_float32"]}
{"id": "C45", "title": "long double to linear takum16 is odd", "statement": "takum_linear16_from_extended_float(-f) = -takum_linear16_from_extended_float(f).", "quantifier": "every finite long double", "why_tests_cant": "2^80 inputs; fails only next to ties", "anchors": ["src/conversion.c: takum_linear16_from_extended_float"]}
{"id": "C46", "title": "Linear arithmetic is correctly rounded at 32 and 64 bits", "statement": "takum_linear32 multiplication, division, inversion and square root and takum_linear64 addition return the linear takum nearest to the exact result.", "quantifier": "all pairs / all arguments", "why_tests_cant": "double rounding shows only when the exact result is within 2^-53 (2^-64) of a tie", "anchors": ["src/multiplication.c", "src/division.c", "src/inversion.c", "src/square_root.c", "src/addition.c", "src/util.h"]}
{"id": "C47", "title": "Linear square root and inversion are correctly rounded (8,16)", "statement": "takum_linear8/16_square_root/inversion return the linear takum nearest to the exact result (ties to even, saturating), NaR for negative numbers / 0; linear32/64 return one of the two bracketing takums.", "quantifier": "all bit patterns", "why_tests_cant": "2^64 patterns; nearest among all takums", "anchors": ["src/square_root.c", "src/inversion.c"]}
{"id": "C48", "title": "Linear arithmetic is monotone", "statement": "addition is monotone in both arguments, subtraction in the first and antitone in the second, multiplication by a nonnegative and division by a positive takum are monotone, square root is monotone and inversion antitone on each sign; all widths.", "quantifier": "all pairs of non-NaR arguments, all widths", "why_tests_cant": "pairs of pairs of 64-bit patterns; a single wrong rounding breaks it", "anchors": ["src/addition.c", "src/subtraction.c", "src/multiplication.c", "src/division.c", "src/square_root.c", "src/inversion.c"]}
{"id": "C49", "title": "Exact results are returned", "statement": "If the exact sum, difference, product, quotient, square root or reciprocal of linear takums is itself a linear takum of that width, it is the result; all widths.", "quantifier": "all argument tuples, all widths", "why_tests_cant": "2^128 pairs; depends on float range and precision covering all takums", "anchors": ["src/addition.c", "src/subtraction.c", "src/multiplication.c", "src/division.c", "src/square_root.c", "src/inversion.c"]}
{"id": "C50", "title": "All predefined constants are correctly rounded", "statement": "Every predefined numerical constant of takum.h, including TAKUM64_6_PI and TAKUM64_6_PI_OVER_5, is the takum nearest to the number it is named after.", "quantifier": "all 36 names, both formats, all four widths", "why_tests_cant": "nearness to a transcendental number needs proved bounds", "anchors": ["takum.h:TAKUM64_6_PI", "takum.h:TAKUM64_6_PI_OVER_5"]}
{"id": "C51", "title": "Limits of the formats", "statement": "TAKUM*_NAR is the takum that is not a real number; TAKUM*_POSITIVE_MINIMUM and TAKUM*_POSITIVE_MAXIMUM are the least and the greatest positive number of their format (same for TAKUM_LINEAR*).", "quantifier": "all takums of each format", "why_tests_cant": "leastness and greatestness quantify over all takums of the format", "anchors": ["takum.h"]}
{"id": "C52", "title": "Accuracy of logarithmic takum to float", "statement": "takumN_to_F(t) differs from the value x of t by at most 8 units in the last place times (1 + |2 ln|x||), relative to x; 0 becomes +0 and NaR becomes NaN. For float32 only for |2 ln|x|| <= 159.", "quantifier": "every t, every width, float32, float64 and extended_float, every libm meeting the C99 rules and the error bound", "why_tests_cant": "2^64 patterns; libm errors differ per platform", "anchors": ["src/conversion.c:takum*_to_float32", "src/conversion.c:takum*_to_float64", "src/conversion.c:takum*_to_extended_float", "src/util.h:SQRTE"]}
{"id": "C53", "title": "Float to logarithmic takum is faithful", "statement": "takumN_from_F(f) is, for finite f, one of the two takums next to f (f itself if it is a takum), saturates, and is 0 only for 0; infinities and NaN give NaR. From long double it is the takum nearest to a number whose coordinate differs by at most 2^-62 (64 bits) or 2^-59, relative to 1 + its magnitude.", "quantifier": "every float of the three formats, every width, every libm meeting the C99 rules and the error bound", "why_tests_cant": "2^80 floats; libm errors differ per platform", "anchors": ["src/conversion.c:takum*_from_float32", "src/conversion.c:takum*_from_float64", "src/conversion.c:takum*_from_extended_float"]}
{"id": "C54", "title": "Accuracy of the elementary functions", "statement": "For each of the 48 functions of one argument, both kinds and all widths, the result at x is the takum nearest (saturating, never 0 or NaR for a nonzero value; up to an error of the coordinate, relative to 1 + its magnitude, of 2^-23, 2^-51, 2^-64, 2^-64 for linear takums of 8, 16, 32, 64 bits, of 2^-59 for logarithmic takums of at most 32 and 2^-62 for those of 64 bits) to a number within a relative distance e of f(x'), where x' is within a relative distance r of x. e is 2^-59 for logarithmic takums and for takums of 64 bits and 2^-48 for narrower linear takums; 2^-48 for all in the case of arcoth, arcsch, 2_raised_minus_1 and 10_raised_minus_1. r is 0 for linear takums, except 2^-61 for the functions of pi times the argument, arccot, arcsec and arccsc (also over pi) and arsech, and 2^-51 for arcoth and arcsch; logarithmic takums add 2^-55. The trigonometric functions are covered at all arguments, however large or close to a multiple of pi/2. Excluded: functions of pi times x of logarithmic takums within a relative distance of 2^-55 of a pole, arcoth of 64 bits within 2^-40 of +-1; 2_raised_minus_1 and 10_raised_minus_1 within 2^-10 of 0 have an absolute error (2^-59 or 2^-48) instead.", "quantifier": "every argument, every width, every libm with C99 domain behaviour and errors of at most 4 units in the last place", "why_tests_cant": "tests compare with the same libm at sampled points; the claim is about all arguments and all conforming libms", "anchors": ["src/*.c", "src/util.h:UTIL_UNARY_FLOAT_TAKUM_WRAPPER", "src/util.h:UTIL_UNARY_FLOAT_TAKUM_LINEAR_WRAPPER"]}
{"id": "C55", "title": "pi-multiple functions are exact at negative multiples of 1/2 too", "statement": "sin_pi_times(-1) = 0, csc_pi_times(-1) = NaR, cos_pi_times(-1/2) = cot_pi_times(-1/2) = 0, tan_pi_times(-1/2) = sec_pi_times(-1/2) = NaR. (False: the residues of negative numbers are negative and match no case.)", "quantifier": "the six functions, all widths, every conforming libm", "why_tests_cant": "tests accept small deviations; the failure depends on the sign of fmod", "anchors": ["src/sin.c:sinpil", "src/cos.c:cospil", "src/tan.c:tanpil", "src/cot.c", "src/sec.c", "src/csc.c"]}
{"id": "C56", "title": "arcoth of 64 bit takums is defined outside [-1,1]", "statement": "takum_linear64_arcoth(x) is NaR only if -1 <= x <= 1. (False: the code calls atanh instead of atanhl, so that 1/x becomes 1.)", "quantifier": "every argument of 64 bits, every conforming libm", "why_tests_cant": "only arguments within 2^-53 of 1 show it", "anchors": ["src/arcoth.c:arcothl"]}
{"id": "C57", "title": "2_raised_minus_1 and 10_raised_minus_1 are accurate near 0", "statement": "The relative error of 2_raised_minus_1 and 10_raised_minus_1 is small for small arguments too, which is what such functions are for. (False: at 2^-100 the result is 0 or at least 2^-66 in absolute value.)", "quantifier": "all small arguments, every conforming libm", "why_tests_cant": "tests compare with the same formula", "anchors": ["src/2_raised.c:two_raised_minus_1l", "src/10_raised.c:ten_raised_minus_1l"]}
{"id": "C58", "title": "Functions of two arguments are accurate", "statement": "addition, subtraction, hypotenuse, arctan2 and arctan2_over_pi of takums of both formats return the takum nearest (up to the coordinate error of C54) to a number within a relative distance e of the function's value, e being 2^-59 for logarithmic takums and for takums of 64 bits and 2^-48 for narrower linear takums; for logarithmic takums at arguments within a relative 2^-56 of the given ones.", "quantifier": "every pair of arguments, all four widths, both formats, every conforming libm", "why_tests_cant": "2^128 pairs, and the result depends on libm", "anchors": ["src/addition.c", "src/subtraction.c", "src/hypotenuse.c", "src/arctan2.c", "src/util.h"]}
{"id": "C59", "title": "Power: accuracy and domain", "statement": "power(a,b) is accurate (as in C58) for a > 0, for a = 0 < b, and for a < 0 with an integer b (logarithmic takums: |b| <= 1); it is NaR for linear takums if and only if a = 0 > b, or a < 0 and b is no integer, or a is NaR and b is not 0, or b is NaR and a is not 1; for logarithmic takums in the corresponding cases.", "quantifier": "every pair, all widths, both formats, every conforming libm", "why_tests_cant": "2^128 pairs", "anchors": ["src/power.c", "src/util.h"]}
{"id": "C60", "title": "Integer powers through floats", "statement": "integer_power of linear takums and of logarithmic takums of 64 bits is, for every base and exponent except 0 with an exponent <= 0, the takum nearest (up to the coordinate error of C54) to a number within a relative distance 2^-62 of the power (logarithmic takums: of a base within a relative 2^-56 of the given one); it is NaR exactly if the base is NaR, or 0 with an exponent <= 0.", "quantifier": "every base, every 64 bit exponent, every conforming libm", "why_tests_cant": "2^128 pairs", "anchors": ["src/integer_power.c"]}
{"id": "C61", "title": "Linear roots: accuracy and domain", "statement": "takum_linearN_root(t,n) is the takum nearest (up to the coordinate error of C54) to a number within a relative distance 2^-54 of the root for positive t and n <> 0, for t = 0 and n > 0, and for t < 0 and n = 1 or -1; it is NaR exactly if t is NaR, n is 0, t < 0 and n is neither 1 nor -1, or t = 0 and n < 0.", "quantifier": "every t, every 64 bit n, every conforming libm", "why_tests_cant": "2^128 pairs", "anchors": ["src/root.c:takum_linear*_root"]}
{"id": "C62", "title": "Conversions between logarithmic and linear takums", "statement": "takumM_from_takum_linearN rounds the number denoted by its argument faithfully; takum_linearM_from_takumN rounds faithfully a number that differs from the argument by a relative error of at most 2^-49 (2^-60 if a width is 64) times (|l|+1); both take NaR to NaR.", "quantifier": "every takum, all 16 pairs of widths, both directions, every conforming libm", "why_tests_cant": "2^64 arguments and a non-elementary exponential", "anchors": ["src/conversion.c:takum16_from_takum_linear8", "src/conversion.c:takum_linear16_from_takum8"]}
{"id": "C63", "title": "Round trips through the other kind", "statement": "Converting a logarithmic takum of n bits to a linear takum of m > n bits, m >= 32, and back gives the same takum; so does converting a linear takum to a wider logarithmic one of at least 32 bits and back, if the number is within the range of logarithmic takums.", "quantifier": "every takum (NaR and 0 included), every pair of widths n < m with m >= 32, every conforming libm", "why_tests_cant": "2^32 arguments, transcendental values in between", "anchors": ["src/conversion.c:takum16_from_takum_linear8", "src/conversion.c:takum_linear16_from_takum8"]}
{"id": "C64", "title": "The calculator evaluates postfix expressions", "statement": "A line of the example calculator whose words form an expression in postfix notation (literals, registers a-z, operators) prints exactly one result, the value that the library functions named by the operators give for the expression in the current type, and stores it in the next register; other registers and the current type stay. Any other line prints no result and changes no register. The reading of a line is unambiguous.", "quantifier": "every session of previous lines, every line (any spacing), every expression of any depth, every conforming libm, every strtold", "why_tests_cant": "unboundedly many expressions, histories and stack depths", "anchors": ["example/calculator.c:process_token", "example/calculator.c:main"]}
{"id": "C65", "title": "Registers hold the results in turn", "statement": "The k-th result printed in a session goes to register number k mod 26, and every register always holds the value printed last for it, or 0 if there was none.", "quantifier": "every session of any number of lines", "why_tests_cant": "arbitrary histories, wrap-around after 26 results", "anchors": ["example/calculator.c:process_token", "example/calculator.c:main", "example/calculator.c:number_print"]}
{"id": "C66", "title": "Switching the type", "statement": "A line consisting of the name of a takum type makes it the current type, prints no result and keeps all registers; a line with no type name keeps the current type.", "quantifier": "every state, every line", "why_tests_cant": "arbitrary lines and histories", "anchors": ["example/calculator.c:process_token", "example/calculator.c:main"]}
{"id": "C67", "title": "Calculator input is safe in logarithmic types", "statement": "While the current type is logarithmic no line without the word abs makes the calculator run into undefined behaviour; in linear types no line without operators does. In particular no input over- or underflows the stack or leaves the operator tables.", "quantifier": "every session, every line of arbitrary bytes, every conforming libm and strtold", "why_tests_cant": "arbitrary input and histories", "anchors": ["example/calculator.c:process_token", "example/calculator.c:main", "example/calculator.c:stack_push", "example/calculator.c:stack_pop"]}
{"id": "C68", "title": "Every line has defined behaviour", "statement": "No line typed into the calculator causes undefined behaviour. (False: the absolute value of NaR negates the least integer; in linear types a result that is NaR or outside of the range of int64_t is converted to int64_t.)", "quantifier": "every session and line", "why_tests_cant": "arbitrary input and histories", "anchors": ["example/calculator.c:process_token", "example/calculator.c:main", "example/calculator.c:number_from_takum_linear64"]}
{"id": "C69", "title": "Integers printed for operators are exact", "statement": "If the calculator prints an integer for the result of an operator, the takum has exactly that value; conversely a result that is exactly -1, 0 or 1 (logarithmic types) or an integer in [-2^63, 2^63-1) (linear types) is printed as that integer.", "quantifier": "every expression, type and session", "why_tests_cant": "all takums and expressions", "anchors": ["example/calculator.c:number_print", "example/calculator.c:number_from_takum8"]}
{"id": "C70", "title": "Integers printed for literals are exact", "statement": "If the calculator prints an integer, the takum it stores has that value. (False of literals: they are printed as typed even if the takum is a rounded value.)", "quantifier": "every session and expression", "why_tests_cant": "all literals", "anchors": ["example/calculator.c:number_print", "example/calculator.c:number_from_string"]}
{"id": "C71", "title": "Decimal integer literals", "statement": "A line consisting of a decimal integer in [-2^63, 2^63-2] prints that integer and stores in the next register a takum neighbouring it, or equal to it if it is representable; integers from 2^63-1 on print and store NaR.", "quantifier": "every integer, any type, any session", "why_tests_cant": "2^64 literals in 8 types", "anchors": ["example/calculator.c:number_from_string"]}
{"id": "C72", "title": "Literals below the range are rejected or exact", "statement": "A line consisting of a decimal integer prints that integer or NaR. (False: integers below -2^63 are taken for -2^63.)", "quantifier": "every integer", "why_tests_cant": "unboundedly many literals", "anchors": ["example/calculator.c:number_from_string"]}
{"id": "C73", "title": "The calculator reads every line of its input", "statement": "The program processes exactly the lines of its input in order, each up to its first NUL byte, with or without a final newline and whatever their lengths; reading stays within the buffer, whichever allocations fail.", "quantifier": "every input, every BUFSIZ >= 4, every schedule of failing allocations (for memory safety)", "why_tests_cant": "lines of every length, every failure schedule", "anchors": ["example/util.c:getline", "example/calculator.c:main"]}
{"id": "C74", "title": "Running out of memory is handled", "statement": "If an allocation fails the calculator still has defined behaviour. (False: after a failed growth of the stack, the next number is written through a null pointer.)", "quantifier": "every input and schedule of failing allocations", "why_tests_cant": "every failure point", "anchors": ["example/calculator.c:stack_push"]}
{"id": "C75", "title": "Exact results are returned exactly", "statement": "If the mathematical result of a function of linear takums of 8, 16 or 32 bits is a takum t of that width, the function returns t: the functions of one argument other than those that round the argument first (functions of pi times x, arccot, arcsec, arccsc, arsech, arcoth, arcsch), addition, subtraction, hypotenuse, power, arctan2, roots, and integer powers (these also for 64 bits). The same for functions of logarithmic takums at 0.", "quantifier": "all arguments in the range of C54, C58-C61, all widths named, every math library with the accuracy of LibmSpec.v", "why_tests_cant": "the arguments with exact results are scattered over all 2^32 patterns and over pairs of patterns, and the math library is not fixed", "anchors": ["src/*.c", "src/util.h:UTIL_UNARY_FLOAT_TAKUM_LINEAR_WRAPPER", "src/addition.c", "src/subtraction.c", "src/hypotenuse.c", "src/power.c", "src/arctan2.c", "src/integer_power.c", "src/root.c"]}
{"id": "C76", "title": "Algebra of logarithmic addition and subtraction", "statement": "For logarithmic takums of every width: a + b = b + a; a + 0 = a, a - 0 = a, 0 - a = -a; a - b = a + (-b) for b other than NaR; for a and b other than NaR, a - b is positive, zero or negative exactly as a > b, a = b or a < b (it never vanishes for different a and b), and a + b as a > -b, a = -b or a < -b. Conversion to every float format commutes with negation, and conversion to long double maps different takums to different numbers in the same order.", "quantifier": "all pairs of takums, all widths, every math library with the accuracy of LibmSpec.v (commutativity: every math library)", "why_tests_cant": "up to 2^128 pairs; sums of neighbours cancel almost completely, and whether a result vanishes depends on the library's powl and logl", "anchors": ["src/addition.c:UTIL_BINARY_FLOAT_TAKUM_WRAPPER", "takum.h:takum8_addition", "src/subtraction.c:UTIL_BINARY_FLOAT_TAKUM_WRAPPER", "takum.h:takum8_subtraction", "src/util.h:UTIL_BINARY_FLOAT_TAKUM_WRAPPER", "src/conversion.c:takum64_to_extended_float"]}
{"id": "C77", "title": "long double to logarithmic takum is odd", "statement": "For logarithmic takums, converting -y from long double gives the negative of converting y. (False of the code: some y becomes t while -y becomes -t - 1.)", "quantifier": "all long doubles, all widths, every math library with the accuracy of LibmSpec.v", "why_tests_cant": "2^80 arguments; it fails only where the coordinate is within a few units of 2^-64 of the middle between two takums", "anchors": ["src/conversion.c:takum64_from_extended_float", "src/conversion.c:takum32_from_extended_float", "src/conversion.c:takum16_from_extended_float", "src/conversion.c:takum8_from_extended_float", "src/codec.c:codec_takum64_from_s_and_l"]}
{"id": "C78", "title": "Odd and even functions", "statement": "With a mathematical library that treats x and -x alike, so do the takum functions: for linear takums of every width sin, tan, cot, csc, arcsin, arctan, arccsc (and their quotients by pi), sinh, tanh, coth, csch, arsinh, artanh, arcoth and arcsch are odd, and cos, sec, cosh and sech even, as are the functions of pi times x where 2x is not an integer; for logarithmic takums cos, sec, cosh and sech are even. f(-x) = -f(x) holds to the last bit, and both are NaR if one is.", "quantifier": "all nonzero takums, all widths, every math library whose odd and even functions are odd and even", "why_tests_cant": "up to 2^64 arguments per function; the sign passes through conversions, quotients and replacements of overflowing and vanishing results", "anchors": ["src/util.h:UTIL_UNARY_FLOAT_TAKUM_LINEAR_WRAPPER", "src/util.h:UTIL_UNARY_FLOAT_TAKUM_WRAPPER", "src/sinh.c:UTIL_UNARY_FLOAT_TAKUM_LINEAR_WRAPPER", "takum.h:takum_linear64_sinh", "src/csch.c:UTIL_UNARY_FLOAT_TAKUM_LINEAR_WRAPPER", "takum.h:takum_linear64_csch", "src/arcoth.c:UTIL_UNARY_FLOAT_TAKUM_LINEAR_WRAPPER", "takum.h:takum_linear64_arcoth", "src/cos.c:UTIL_UNARY_FLOAT_TAKUM_WRAPPER", "takum.h:takum64_cos"]}
{"id": "C79", "title": "Monotone functions stay monotone", "statement": "With a mathematical library whose functions are monotone, the takum functions never reverse an order the real functions keep. exp, 2^x, 10^x and these minus 1, the logarithms, arcsin, arctan, sinh, tanh, arsinh, arcosh and artanh (and the quotients by pi) are increasing; arccos is decreasing; cosh, sech, coth, csch, arccot, arcsec, arccsc, arcoth, arsech and arcsch are increasing or decreasing on each side of zero where the real function is. The replacements of overflowing and vanishing results keep the order too. The conversions from every float type to logarithmic takums are increasing.", "quantifier": "every two takums at which the function is not NaR, every width, both kinds; every two finite floats of every format; every math library that is monotone and accurate", "why_tests_cant": "pairs of arguments: up to 2^128 per function", "anchors": ["src/util.h:UTIL_UNARY_FLOAT_TAKUM_LINEAR_WRAPPER", "src/util.h:UTIL_UNARY_FLOAT_TAKUM_WRAPPER", "src/exp.c:UTIL_UNARY_FLOAT_TAKUM_WRAPPER", "takum.h:takum64_exp", "src/csch.c:UTIL_UNARY_FLOAT_TAKUM_LINEAR_WRAPPER", "takum.h:takum_linear64_csch", "src/arccot.c:UTIL_UNARY_FLOAT_TAKUM_LINEAR_WRAPPER", "takum.h:takum_linear64_arccot", "src/conversion.c:takum64_from_float64"]}
{"id": "C80", "title": "Conversions, sums, powers, hypotenuse and roots keep the order of their arguments", "statement": "With a mathematical library that follows C99 and whose functions are monotone where the real functions are, the library never reverses an order: conversions from logarithmic takums to every float format and between logarithmic and linear takums are increasing; logarithmic addition and subtraction are increasing in the first argument, addition also in the second, and subtraction is decreasing in the second; powers of positive numbers rise with the exponent for bases of at least 1 and fall for bases up to 1, and rise with the base for exponents of at least 0 and fall for exponents up to 0; the hypotenuse rises with either non-negative argument; integer powers and roots of positive numbers rise for positive and fall for negative exponents.", "quantifier": "both formats, all four widths (all pairs of widths for conversions), all argument pairs in the stated order, all int64_t exponents, all C99 libraries with monotone functions", "why_tests_cant": "Monotonicity relates every pair of up to 2^64 arguments (and every third argument); a reversal can sit at a single rounding or saturation boundary.", "anchors": ["src/addition.c", "src/subtraction.c", "src/power.c", "src/hypotenuse.c", "src/integer_power.c", "src/root.c", "src/conversion.c"]}
{"id": "C81", "title": "Complete description of a calculator line", "statement": "Every line given to the calculator does exactly one of these: nothing, if it is blank; show the value of the expression it is; say that not exactly one number is left, if it is some other number of expressions; stop at the first word that cannot be carried out, after printing the help text for ?, nothing for a type name (which becomes current), the stack underflow message for an operator that lacks operands, nothing for a root whose degree is not known to be an integer, the invalid token message with the word itself for a word that is no name and no number; or have undefined behaviour, exactly if a function of the API has or if its result in a linear type is NaR or does not fit int64_t. Whatever follows the stopping word is ignored; registers and the current type change only as stated.", "quantifier": "every session, every line of any length over all byte strings, every strtold, every C99 math library", "why_tests_cant": "the lines are infinitely many and their effect depends on the whole history through the registers", "anchors": ["example/calculator.c:process_token", "example/calculator.c:stack_pop", "example/calculator.c:number_from_string", "example/calculator.c:main"]}
{"id": "C82", "title": "No silent failure of a calculator line", "statement": "A line with at least one word that does not name a type prints a value or a message.", "quantifier": "every session and every line with defined behaviour", "why_tests_cant": "the lines are infinitely many; the exception is a single combination of operator and operand", "anchors": ["example/calculator.c:process_token"]}
{"id": "C83", "title": "Integer literals in all notations of C", "statement": "The calculator reads integers written as constants of C, decimal, octal (leading 0) or hexadecimal (0x or 0X, digits in either case), with an optional sign + or -, exactly if they lie from -2^63 to 2^63 - 2; it prints them as integers and stores a faithful rounding in the current type.", "quantifier": "every such text of any length, every session, every current type, every strtold", "why_tests_cant": "the texts are infinitely many", "anchors": ["example/calculator.c:number_from_string"]}
{"id": "C84", "title": "Leading zeros do not change an integer", "statement": "A text of decimal digits is read as the decimal number it denotes, also with leading zeros.", "quantifier": "every text of decimal digits whose number fits", "why_tests_cant": "the texts are infinitely many", "anchors": ["example/calculator.c:number_from_string"]}
{"id": "C85", "title": "Start of the calculator, and later input changes no earlier output", "statement": "The calculator starts with the type takum64 and all registers 0 and prints a welcome and a prompt. What it has printed for an input is the beginning of what it prints for that input continued with a new line and anything else.", "quantifier": "all inputs and continuations, all buffer sizes of at least 4, every strtold and C99 library", "why_tests_cant": "pairs of inputs, of unbounded length", "anchors": ["example/calculator.c:main", "example/util.c:getline"]}
{"id": "C86", "title": "Float survives a trip through logarithmic takum64", "statement": "Converting a float32 or a float64 (of moderate magnitude) to logarithmic takum64 and back to the same format gives the same float, as for linear takums (C09): takum64 has enough bits to tell neighbouring floats apart.", "quantifier": "all floats of the two formats, every C99 library", "why_tests_cant": "all 2^64 doubles and every mathematical library", "anchors": ["src/conversion.c:takum64_from_float32", "src/conversion.c:takum64_from_float64", "src/conversion.c:takum64_to_float32", "src/conversion.c:takum64_to_float64"]}
{"id": "C87", "title": "Float survives a trip through logarithmic takum64 and long double", "statement": "A float32 other than 0 converted to logarithmic takum64, from there to long double and rounded to float32 is unchanged; the same for every double of magnitude 2^-64 to 2^64.", "quantifier": "all finite nonzero float32, all doubles of that range, every C99 library with log and pow within 2 units in the last place", "why_tests_cant": "all floats of both formats and every mathematical library", "anchors": ["src/conversion.c:takum64_from_float32", "src/conversion.c:takum64_from_float64", "src/conversion.c:takum64_to_float32", "src/conversion.c:takum64_to_float64", "src/conversion.c:takum64_to_extended_float", "src/codec.c"]}
{"id": "C88", "title": "Results of takums of at most 32 bits are faithful roundings", "statement": "For takum8, takum16 and takum32 no takum lies strictly between the result of an elementary function and the exact value: for linear takums between the result and the value at the given argument (all functions whose argument is not transformed first, addition, subtraction, power, hypotenuse, arctan2 and its multiple of 1/pi, integer powers even for takum64, and roots of positive numbers), for logarithmic takums and for functions like arcsec between the result and the value at an argument within a relative distance of 2^-50.", "quantifier": "all takums of 8, 16 and 32 bits for which the function is defined, all functions, every C99 library with a few units of error in the last place", "why_tests_cant": "all 2^32 arguments, or pairs of arguments, and every mathematical library", "anchors": ["src/exp.c", "src/sin.c", "src/hypotenuse.c", "src/power.c", "src/integer_power.c", "src/root.c", "src/util.h"]}
{"id": "C89", "title": "Results lie in the range of the function", "statement": "For takum8, takum16 and takum32 of both kinds sin, cos, tanh and their kin never exceed 1 in magnitude, sec, csc, cosh and coth are never below 1 in magnitude, exponentials minus 1 are never below -1, inverse functions over pi stay within 1/2 or between 0 and 1, and so on; hence arcsin of sin, arccos of cos, arcosh of cosh, ln of exp and the like are never NaR. A linear result is on the same side of every takum as the exact value.", "quantifier": "all takums of 8, 16 and 32 bits for which the function is defined, all functions, every C99 library with a few units of error in the last place", "why_tests_cant": "all arguments and every mathematical library, including ones whose sin exceeds 1 by a unit", "anchors": ["src/sin.c", "src/cos.c", "src/cosh.c", "src/arcsin.c", "src/arccos.c", "src/exp.c", "src/util.h", "src/codec.c"]}
{"id": "C90", "title": "Linear takum to float is portable", "statement": "On all three formats of long double that the code has branches for (53, 64 and 113 bits), and for both layouts, converting linear takum8, takum16 and takum32 to float32 and float64 gives the same result as on x86-64, and converting to long double is exact; for takum64 the same holds where long double has at least 64 bits.", "quantifier": "all platforms of the three long double formats, all takums", "why_tests_cant": "all 2^32 and 2^64 takums, and platforms the tests do not run on", "anchors": ["src/codec.c:codec_s_and_linear_l_to_float64", "src/codec.c:codec_s_and_linear_l_to_extended_float", "src/codec.c:codec_takum64_to_l", "src/conversion.c:takum_linear64_to_float64"]}
{"id": "C91", "title": "Inequalities between arguments and results", "statement": "For linear takum8, takum16 and takum32 the result compares to the argument as the exact value does: exp, exp_minus_1, 2_raised and 10_raised are never below x, ln, ln_1_plus, lb, lg and arcosh never above; sin, tanh, arctan and arsinh never exceed x in magnitude, sinh, arcsin, artanh and (up to pi/2) tan are never smaller; a hypotenuse is not shorter than its legs; a positive integer power of x is at least x if x >= 1 and at most x if 0 <= x <= 1 (takum64 too), and a root lies between 1 and x.", "quantifier": "all linear takums of 8, 16 and 32 bits where the function is defined, all exponents, every C99 library with a few units of error in the last place", "why_tests_cant": "all arguments, or pairs, and every mathematical library", "anchors": ["src/exp.c", "src/ln.c", "src/sin.c", "src/tanh.c", "src/hypotenuse.c", "src/integer_power.c", "src/root.c"]}
{"id": "C92", "title": "Two mathematical libraries agree up to one unit", "statement": "Exchanging the mathematical library changes the result of a function of linear takum8, takum16 and takum32 (those whose argument is not transformed first, addition, subtraction, power, hypotenuse, arctan2, integer powers and roots) and of every conversion from a float to a logarithmic takum by at most one unit in the last place.", "quantifier": "all pairs of C99 libraries with a few units of error in the last place, all arguments", "why_tests_cant": "all arguments and all pairs of libraries", "anchors": ["src/conversion.c:takum64_from_extended_float", "src/exp.c", "src/sin.c", "src/power.c", "src/hypotenuse.c", "src/integer_power.c", "src/root.c"]}
{"id": "C93", "title": "Narrowing in two steps equals narrowing in one", "statement": "Narrowing a takum to an intermediate width and then to a smaller one gives the same as narrowing at once.", "quantifier": "all takums and all triples of widths", "why_tests_cant": "all 2^64 takums", "anchors": ["src/conversion.c:takum8_from_takum16", "src/conversion.c:takum8_from_takum32", "src/conversion.c:takum8_from_takum64", "src/conversion.c:takum16_from_takum32"]}
{"id": "C94", "title": "Changing the width in two steps", "statement": "Narrowing in two steps gives a takum at most one unit away from narrowing at once; widening in two steps equals widening at once; and widening beyond a width and narrowing to it equals widening to it.", "quantifier": "all takums, both kinds, all triples of widths", "why_tests_cant": "all 2^64 takums", "anchors": ["src/conversion.c:takum8_from_takum16", "src/conversion.c:takum64_from_takum8", "src/conversion.c:takum16_from_takum64"]}
{"id": "C95", "title": "Squares and powers of two are exact", "statement": "Multiplying a logarithmic takum of 16, 32 or 64 bits by itself gives exactly its square, and raising one of 16 or 32 bits to a power 2^j exactly that power, as long as the result is within the range of the format; hence the square root of the square is exactly the absolute value.", "quantifier": "all takums of the widths, all j from 0 to 62", "why_tests_cant": "2^64 takums or 2^128 pairs of takums", "anchors": ["src/multiplication.c:takum16_multiplication", "src/square_root.c:takum16_square_root", "src/integer_power.c:takum16_integer_power"]}
{"id": "C96", "title": "Square root of a square", "statement": "At every width and for both kinds the square root of the product of a takum with itself is the absolute value of the takum, unless the product saturates.", "quantifier": "all takums, both kinds, all widths", "why_tests_cant": "2^64 takums", "anchors": ["src/multiplication.c:takum8_multiplication", "src/multiplication.c:UTIL_BINARY_FLOAT_TAKUM_LINEAR_WRAPPER", "takum.h:takum_linear16_multiplication", "src/square_root.c:takum8_square_root", "src/square_root.c:UTIL_UNARY_FLOAT_TAKUM_LINEAR_WRAPPER", "takum.h:takum_linear16_square_root"]}
{"id": "C97", "title": "Computing in a wider format changes nothing", "statement": "Widening the arguments, multiplying, dividing, taking the square root or the integer power of logarithmic takums in the wider format and narrowing the result gives the same takum as the function of the original width; the same holds of multiplication of linear takums of 8 and 16 bits.", "quantifier": "all takums and exponents, all pairs of widths that have the function", "why_tests_cant": "2^64 takums or 2^128 pairs of takums", "anchors": ["src/multiplication.c:takum16_multiplication", "src/division.c:takum16_division", "src/square_root.c:takum32_square_root", "src/integer_power.c:takum16_integer_power", "src/conversion.c:takum16_from_takum32"]}
{"id": "C98", "title": "Products of linear takums in a wider format", "statement": "Widening two linear takums, multiplying them in the wider format and narrowing the product gives the correctly rounded product, also for 32 bits, where the direct product is not correctly rounded.", "quantifier": "all pairs of linear takums of 8, 16 and 32 bits and all wider formats", "why_tests_cant": "2^64 pairs", "anchors": ["src/multiplication.c:UTIL_BINARY_FLOAT_TAKUM_LINEAR_WRAPPER", "takum.h:takum_linear64_multiplication", "src/conversion.c:takum_linear64_from_takum_linear32", "src/conversion.c:takum_linear32_from_takum_linear64"]}
{"id": "C99", "title": "Differences of close linear takums are exact", "statement": "Subtracting two linear takums of which neither is more than twice the other (or adding two whose negative is such) gives exactly the difference, unless the difference is nonzero and at most 2^-255 in magnitude, below every takum.", "quantifier": "all pairs of linear takums of 8, 16, 32 and 64 bits", "why_tests_cant": "2^128 pairs; the precision depends on the magnitude, so the classical argument for floats does not apply", "anchors": ["src/subtraction.c:UTIL_BINARY_FLOAT_TAKUM_LINEAR_WRAPPER", "takum.h:takum_linear16_subtraction", "src/addition.c:UTIL_BINARY_FLOAT_TAKUM_LINEAR_WRAPPER", "takum.h:takum_linear16_addition"]}
{"id": "C100", "title": "Results of two arguments do not overshoot takums", "statement": "For linear takums of at most 32 bits the result of addition, subtraction, power, hypotenuse, arctan2, arctan2_over_pi, integer_power (all widths) and root is on the same side of every takum as the exact value, so that the angle of a point lies in the octant of the point and is exact on the boundaries of the octants.", "quantifier": "all takums, exponents and all libraries that meet the accuracy assumptions", "why_tests_cant": "2^64 pairs and every mathematical library", "anchors": ["src/hypotenuse.c:UTIL_BINARY_FLOAT_TAKUM_LINEAR_WRAPPER", "takum.h:takum_linear16_hypotenuse", "src/arctan2.c:UTIL_BINARY_FLOAT_TAKUM_LINEAR_WRAPPER", "takum.h:takum_linear16_arctan2_over_pi", "src/power.c:UTIL_BINARY_FLOAT_TAKUM_LINEAR_WRAPPER", "takum.h:takum_linear16_power", "src/root.c:takum_linear16_root"]}
{"id": "C101", "title": "Relative error of every operation", "statement": "If the exponent e of the exact result is in -254..253, the result of an operation on takums of 16, 32 or 64 bits has a relative error of at most 2^-p, where p is the number of fraction bits of an n-bit takum with that exponent (n-5 less the number of exponent bits, at least n-12), and of at most 2^-(p+1) where the operation is correctly rounded: addition, subtraction (below 64 bits), multiplication, division, square root and inversion (linear, 16 bits; logarithmic, below 64 bits), square root and integer power of logarithmic takums, narrowing, conversion of floats; conversion from linear to logarithmic takums and the mathematical functions of linear takums of 16 and 32 bits stay within 2^-p.", "quantifier": "all takums, floats, widths from 16 bits and all libraries that meet the accuracy assumptions", "why_tests_cant": "error bounds must hold for every one of up to 2^128 argument pairs", "anchors": ["src/addition.c:UTIL_BINARY_FLOAT_TAKUM_LINEAR_WRAPPER", "takum.h:takum_linear16_addition", "src/multiplication.c:takum32_multiplication", "src/conversion.c:takum_linear16_from_float32", "src/square_root.c:takum16_square_root"]}
{"id": "C102", "title": "Adding up a list of linear takums", "statement": "Adding up a list of m+1 linear takums of 16, 32 or 64 bits from left to right gives a value that differs from the exact sum by at most ((1+u)^m - 1) times the sum of the magnitudes, plus m (1+u)^m 2^-254, where u = 2^-(n-11) (2^-(n-12) for 64 bits), unless the range of takums could be exceeded; if no number is negative the relative error is at most (1+u)^m - 1.", "quantifier": "all lists of any length, all linear takums", "why_tests_cant": "lists of every length; rounding errors could accumulate faster for some of them", "anchors": ["src/addition.c:UTIL_BINARY_FLOAT_TAKUM_LINEAR_WRAPPER", "takum.h:takum_linear16_addition", "takum.h:takum_linear64_addition"]}
{"id": "C103", "title": "Multiplying together a list of takums", "statement": "Multiplying together a list of m+1 linear or logarithmic takums of 16, 32 or 64 bits from left to right gives the exact product times a factor between (1-u)^m and (1+u)^m, with u = 2^-(n-11) where multiplication is correctly rounded and 2^-(n-12) otherwise, as long as the partial products stay clear of the ends of the range of takums and m u < 1/2.", "quantifier": "all lists of any length, all takums", "why_tests_cant": "lists of every length; rounding errors could accumulate faster for some of them", "anchors": ["src/multiplication.c:takum16_multiplication", "src/multiplication.c:UTIL_BINARY_FLOAT_TAKUM_LINEAR_WRAPPER", "takum.h:takum_linear16_multiplication"]}
{"id": "C104", "title": "Scalar products and Horner's rule", "statement": "The scalar product of two lists of m linear takums and the value of a polynomial of degree m by Horner's rule, computed with the addition and multiplication of linear takums of 16, 32 or 64 bits, satisfy the classical error bounds with u = 2^-(n-12): ((1+u)^(m+1) - 1) times the sum of the magnitudes of the products, and ((1+u)^(2m) - 1) times the polynomial of the magnitudes, up to terms of the order of 2^-254.", "quantifier": "all lists of any length, all linear takums", "why_tests_cant": "lists of every length; rounding errors could accumulate faster for some of them", "anchors": ["src/addition.c:UTIL_BINARY_FLOAT_TAKUM_LINEAR_WRAPPER", "takum.h:takum_linear32_addition", "src/multiplication.c:UTIL_BINARY_FLOAT_TAKUM_LINEAR_WRAPPER", "takum.h:takum_linear32_multiplication"]}
{"id": "C105", "title": "The precision function bounds the error of a result", "statement": "With p the precision the library reports for the result of an operation (16 bits or more), the relative error of the result is at most 2^-(p-1), and at most 2^-p where the operation is correctly rounded: sums, differences, products, quotients, square roots and inverses of linear takums, products, quotients and square roots of logarithmic takums. So the error can be bounded from the result alone, although the precision of takums depends on the magnitude.", "quantifier": "all takums of 16, 32 and 64 bits, all operands whose exact result is within the takum range", "why_tests_cant": "2^128 pairs of operands; results next to a change of the precision are rare", "anchors": ["src/precision.c:takum_linear16_precision", "src/precision.c:takum16_precision", "src/addition.c:UTIL_BINARY_FLOAT_TAKUM_LINEAR_WRAPPER", "takum.h:takum_linear16_addition", "src/multiplication.c:takum16_multiplication"]}
{"id": "C106", "title": "The rounding error of a sum is a takum", "statement": "For linear takums of 16 and 32 bits with magnitudes between 2^-200 and 2^253 the difference of the exact sum of two takums and the returned sum is itself a takum of that width, so that nothing need be lost in a sum.", "quantifier": "all pairs of linear takums of 16 and 32 bits of that range", "why_tests_cant": "2^64 pairs; the precision depends on the magnitude, so the classical argument for floats does not apply", "anchors": ["src/addition.c:UTIL_BINARY_FLOAT_TAKUM_LINEAR_WRAPPER", "takum.h:takum_linear16_addition", "takum.h:takum_linear32_addition"]}
{"id": "C107", "title": "The error of a sum can be computed with two subtractions", "statement": "For linear takums a and b of 16 and 32 bits with 2^-200 <= |b| <= |a| < 2^253 and s the returned sum of at most 2|a| in magnitude, the library computes b - (s - a) without error, and it is the difference of the exact sum and s (the algorithm of Dekker for floats).", "quantifier": "all pairs of linear takums of 16 and 32 bits of that range", "why_tests_cant": "2^64 pairs", "anchors": ["src/addition.c:UTIL_BINARY_FLOAT_TAKUM_LINEAR_WRAPPER", "takum.h:takum_linear16_addition", "src/subtraction.c:UTIL_BINARY_FLOAT_TAKUM_LINEAR_WRAPPER", "takum.h:takum_linear16_subtraction"]}
{"id": "C108", "title": "The error of a sum can always be computed with two subtractions", "statement": "For linear takums with |b| <= |a| and s the returned sum, b - (s - a) as computed by the library is the difference of the exact sum and s, as it is for binary floats.", "quantifier": "all pairs of linear takums, whatever the sum", "why_tests_cant": "2^64 pairs; fails only where the sum exceeds 2|a| after rounding and loses precision", "anchors": ["src/addition.c:UTIL_BINARY_FLOAT_TAKUM_LINEAR_WRAPPER", "takum.h:takum_linear16_addition", "src/subtraction.c:UTIL_BINARY_FLOAT_TAKUM_LINEAR_WRAPPER", "takum.h:takum_linear16_subtraction"]}
{"id": "C109", "title": "Conversions to takums depend on the value of the float, not on its format", "statement": "A number that is a float32, a float64 or a long double (or several of these) is converted to the same takum from each: always for linear takums of 8, 32 and 64 bits and logarithmic takums of 64 bits, and between float64 and long double for linear takums of 16 and logarithmic takums of 8 and 16 bits. In all remaining cases the two takums differ by at most one unit.", "quantifier": "all finite floats of the three formats with the same value; every mathematical library (for the last sentence: every C99 library)", "why_tests_cant": "2^64 floats; the code paths differ per format and per library", "anchors": ["src/conversion.c:takum_linear32_from_float32", "src/conversion.c:takum_linear32_from_float64", "src/conversion.c:takum64_from_float32", "src/conversion.c:takum64_from_extended_float", "src/codec.c:codec_linear_l_from_float32"]}
{"id": "C110", "title": "Linear takum16 from float32 and float64 agree", "statement": "takum_linear16_from_float32(f) = takum_linear16_from_float64(f) for every float32 f.", "quantifier": "all finite float32", "why_tests_cant": "2^32 floats; fails only for large magnitudes next to the middle of two takums", "anchors": ["src/conversion.c:takum_linear16_from_float32", "src/conversion.c:takum_linear16_from_float64"]}
{"id": "C111", "title": "Logarithm and exponential undo each other up to an error", "statement": "For linear takums of 16 and 32 bits and the bases e, 2 and 10: raising the base b to the computed logarithm y of a positive x (2^-252 <= x <= 2^252) gives x up to the relative error exp(ln b * 2^-(n-8) * max(1,|y|)) * (1 + 2^-(n-12)) - 1, and the logarithm of the computed power b^x gives x up to 2 * 2^-(n-12) / ln b + 2^-(n-8) * max(1,|x|).", "quantifier": "all positive takums in the range (all takums whose power is in the range), three bases, two widths, every C99 mathematical library", "why_tests_cant": "2^32 arguments and every mathematical library; the two errors combine differently for every argument", "anchors": ["takum.h:takum_linear16_ln", "takum.h:takum_linear16_exp", "takum.h:takum_linear32_lb", "takum.h:takum_linear32_2_raised", "takum.h:takum_linear32_lg", "takum.h:takum_linear32_10_raised"]}
{"id": "C112", "title": "Inverse operations of linear takums undo each other up to an error", "statement": "For linear takums of 16, 32 and 64 bits with u = 2^-(n-12) (2^-5 for n = 16): (x*y)/y and (x/y)*y differ from x by at most ((1+u)^2-1)|x|, 1/(1/x) by at most ((1+u)/(1-u)-1)|x| and sqrt(x)*sqrt(x) by at most ((1+u)^3-1)|x|, as long as x and the intermediate result are between 2^-253 and 2^253 in magnitude.", "quantifier": "all takums with moderate values, three widths", "why_tests_cant": "2^128 pairs of takums", "anchors": ["takum.h:takum_linear64_multiplication", "takum.h:takum_linear64_division", "takum.h:takum_linear64_inversion", "takum.h:takum_linear64_square_root"]}
{"id": "C113", "title": "Inverse operations of linear takums undo each other exactly", "statement": "1/(1/x) = x for every nonzero linear takum x, (x*y)/y = x for all x and nonzero y, and the mean (x+x)/2 of a number with itself is the number.", "quantifier": "all linear takums of 16 bits (of values between 1 and 2 for the mean)", "why_tests_cant": "holds for most arguments; fails only where the intermediate result has a coarser spacing", "anchors": ["takum.h:takum_linear16_inversion", "takum.h:takum_linear16_multiplication", "takum.h:takum_linear16_division", "takum.h:takum_linear16_addition"]}
{"id": "C114", "title": "Long products keep the sign and long sums stay above their summands", "statement": "Multiplying any number of takums one after the other with the multiplication function, of either kind, yields NaR only if an operand is NaR; the sign of the result is the product of the signs, so it is zero only if a factor is zero (no underflow). Adding up linear takums that are not negative never yields NaR or a takum below one of the summands. Raising summands, or positive factors, never lowers the result.", "quantifier": "all widths; lists of any length of takums other than NaR", "why_tests_cant": "lists are unbounded and every rounding and saturation in between matters", "anchors": ["takum.h:takum8_multiplication", "takum.h:takum64_multiplication", "takum.h:takum_linear8_multiplication", "takum.h:takum_linear64_multiplication", "takum.h:takum_linear8_addition", "takum.h:takum_linear64_addition"]}
{"id": "C115", "title": "The middle of two linear takums lies between them", "statement": "For linear takums a <= b whose difference is zero or between 2^-252 and 2^252, the takum computed as a + (b - a) / 2, as a bisection does, is at least a and at most b.", "quantifier": "linear takums of 16, 32 and 64 bits; all a <= b with such a difference", "why_tests_cant": "all pairs of takums; the three roundings could push the result out of the interval", "anchors": ["takum.h:takum_linear16_addition", "takum.h:takum_linear16_subtraction", "takum.h:takum_linear16_division", "takum.h:takum_linear64_addition", "takum.h:takum_linear64_subtraction", "takum.h:takum_linear64_division"]}
{"id": "C116", "title": "The middle of any two linear takums lies between them", "statement": "For positive linear takums a <= b the takum computed as a + (b - a) / 2 is at least a and at most b, however small or large the difference is.", "quantifier": "all positive linear takums of 16 bits", "why_tests_cant": "fails only near the ends of the dynamic range", "anchors": ["takum.h:takum_linear16_addition", "takum.h:takum_linear16_subtraction", "takum.h:takum_linear16_division"]}
{"id": "C117", "title": "Squares of sine and cosine sum to one up to an error", "statement": "For every linear takum x other than NaR, the squares of takum_linear*_sin(x) and takum_linear*_cos(x), multiplied and added as takums, sum to a takum within 2^-(n-8) of one, whatever C99-conforming mathematical library is used.", "quantifier": "linear takums of 16 and 32 bits, all arguments, all mathematical libraries within the stated accuracy", "why_tests_cant": "all arguments and all libraries", "anchors": ["takum.h:takum_linear16_sin", "takum.h:takum_linear16_cos", "takum.h:takum_linear16_multiplication", "takum.h:takum_linear16_addition", "takum.h:takum_linear32_sin", "takum.h:takum_linear32_cos", "takum.h:takum_linear32_multiplication", "takum.h:takum_linear32_addition"]}
{"id": "C118", "title": "A quotient is one exactly for equal operands", "statement": "The quotient of two takums that are neither zero nor NaR is one if and only if they are the same takum, for logarithmic takums of every width and linear takums of 8 and 16 bits. For linear takums of every width, a smaller positive takum divided by a larger one gives a takum below one.", "quantifier": "all pairs of takums of these widths", "why_tests_cant": "all pairs; different neighbours have quotients very close to one", "anchors": ["takum.h:takum8_division", "takum.h:takum16_division", "takum.h:takum32_division", "takum.h:takum64_division", "takum.h:takum_linear8_division", "takum.h:takum_linear16_division", "takum.h:takum_linear32_division", "takum.h:takum_linear64_division"]}
{"id": "C119", "title": "A quotient of wide linear takums is one only for equal operands", "statement": "The quotient of two linear takums of 32 or 64 bits that are neither zero nor NaR is one if and only if they are the same takum.", "quantifier": "all pairs of linear takums of 32 and of 64 bits", "why_tests_cant": "fails only for a larger takum divided by one slightly below it", "anchors": ["takum.h:takum_linear32_division", "takum.h:takum_linear64_division"]}
{"id": "C120", "title": "Printed text can be entered again at 8 and 16 bits", "statement": "If the current type has 8 or 16 bits, entering the text the calculator last printed for a register of that type gives the same takum, unless it is NaR. printf writes %Lg after the C standard, and strtold reads decimal numbers to 62 bits.", "quantifier": "every session, register, type of 8 or 16 bits, C library and text", "why_tests_cant": "all takums, literals and histories, and every library that follows the standard", "anchors": ["example/calculator.c:number_print", "example/calculator.c:number_from_string"]}
{"id": "C121", "title": "Printed text has six correct digits", "statement": "The text printed for a number that is not printed as an integer is a decimal number that differs from the value of the takum by at most 5.01e-6 of it.", "quantifier": "every session, register and type", "why_tests_cant": "all takums of 64 bits", "anchors": ["example/calculator.c:number_print", "example/calculator.c:number_from_string"]}
{"id": "C122", "title": "Printed text can be entered again", "statement": "Entering the text the calculator last printed for a register of the current type gives the same takum. (False: at 32 bits and more six digits do not identify a takum, and NaR is printed but not accepted.)", "quantifier": "every session, register and type", "why_tests_cant": "all takums and histories", "anchors": ["example/calculator.c:number_print", "example/calculator.c:number_from_string"]}
{"id": "C123", "title": "Printed integers can be entered again", "statement": "If the calculator prints an integer for the result of an operator, entering this integer gives the same number, at every width.", "quantifier": "every session, expression, type and result that is printed as an integer", "why_tests_cant": "all 64-bit takums", "anchors": ["example/calculator.c:number_print", "example/calculator.c:number_from_string", "example/calculator.c:number_from_takum_linear64"]}
{"id": "C124", "title": "16-bit results are portable", "statement": "With the same mathematical library, the conversion from double to linear takum16, the operations and functions linear takum16 computes in double (sum, difference, product, quotient, square root, power, hypotenuse, arctan2, exp, ln, sin, ...) and the conversions of logarithmic takums to float and double that are computed in the format of the result give the same on every platform the code has branches for, whatever the format of long double and the layout of its struct.", "quantifier": "every platform with a long double of 53, 64 or 113 bits, every mathematical library, all operands and every double", "why_tests_cant": "a test runs on one platform; all operands and doubles", "anchors": ["takum.h:takum_linear16_addition", "takum.h:takum_linear16_from_float64", "takum.h:takum16_to_float64", "src/codec.c:codec_linear_l_from_float64", "src/codec.c:codec_takum16_from_s_and_l"]}
{"id": "C125", "title": "Arithmetic of the other widths is portable", "statement": "One times a takum and a takum plus zero give the same on every platform at 8, 32 and 64 bits too. (False: on every platform other than x86-64's layout the fraction is doubled, halved or shifted by a negative amount.)", "quantifier": "every platform with a long double of 53, 64 or 113 bits", "why_tests_cant": "a test runs on one platform", "anchors": ["takum.h:takum8_multiplication", "takum.h:takum_linear8_addition", "src/codec.c:extended_float_fraction_to_rounded_bits"]}
{"id": "C126", "title": "Floats through linear takum64 are correctly rounded", "statement": "A finite float or double converted to linear takum64 and narrowed to 8, 16 or 32 bits is the correctly rounded linear takum (nearest, ties to even, saturating), and at 32 bits it is the result of the direct conversion.", "quantifier": "every finite float and double, every width below 64", "why_tests_cant": "2^64 doubles, rounding ties and saturation at every magnitude", "anchors": ["takum.h:takum_linear64_from_float64", "takum.h:takum_linear16_from_takum_linear64", "takum.h:takum_linear32_from_float64", "src/codec.c:codec_linear_l_from_float64"]}
{"id": "C127", "title": "Direct conversion to linear takum8/16 agrees with the one through linear takum64", "statement": "Converting a float or double to linear takum8 or 16 directly gives what converting it to linear takum64 and narrowing gives. (False: the direct conversion rounds twice.)", "quantifier": "every finite float and double", "why_tests_cant": "2^64 doubles; the witnesses lie next to ties", "anchors": ["takum.h:takum_linear16_from_float64", "takum.h:takum_linear8_from_float32", "src/codec.c:codec_takum16_from_s_and_l"]}
{"id": "C128", "title": "Two ways to compute a number agree", "statement": "Two calls of functions on linear takums of the same width (at most 32 bits; for 64 bits the arithmetic and integer_power) that stand for the same real number yield takums at most one unit in the last place apart, even with different mathematical libraries: t*t, integer_power(t,2) and power(t,2); inversion(t), 1/t, integer_power(t,-1) and root(t,-1); square_root(t), root(t,2) and power(t,1/2); 2_raised(t) and power(2,t); t+t and 2*t. Two calls that stand for numbers z <= z' yield results in that order up to one unit in the last place, and exactly in that order if a takum lies between z and z'.", "quantifier": "all pairs of calls of linear arithmetic, elementary functions, power, integer_power, root, hypotenuse and arctan2, all arguments at which the functions are defined, all widths, all mathematical libraries that meet the accuracy assumption", "why_tests_cant": "pairs of calls with all their arguments (2^32 and more for each) and all mathematical libraries", "anchors": ["src/addition.c", "src/multiplication.c", "src/division.c", "src/inversion.c", "src/square_root.c", "src/root.c", "src/power.c", "src/integer_power.c", "src/2_raised.c", "src/util.c: UTIL_UNARY_FLOAT_WRAPPER"]}
{"id": "C129", "title": "Reciprocals of logarithmic takums commute with arithmetic", "statement": "For logarithmic takums a, b other than 0 and NaR: 1/(a*b) = (1/a)*(1/b) and 1/(a/b) = b/a = (1/a)/(1/b) (all widths); sqrt(1/a) = 1/sqrt(a) for a > 0 (all widths); integer_power(1/a,e) = 1/integer_power(a,e) = integer_power(a,-e) and root(1/a,e) = 1/root(a,e) = root(a,-e) for every e (8, 16, 32 bits; -e if it is an int64_t). All equalities are exact, although the results are rounded.", "quantifier": "all takums other than 0 and NaR, all exponents in int64_t, all widths as stated", "why_tests_cant": "2^64 and more pairs of operands per width", "anchors": ["src/inversion.c", "src/multiplication.c", "src/division.c", "src/square_root.c", "src/integer_power.c", "src/root.c", "src/codec.c"]}
{"id": "C130", "title": "Roots of 64 bit takums commute with reciprocals", "statement": "root(1/a,e) = 1/root(a,e) = root(a,-e) for logarithmic takum64. (False: a = 0x4000000000000035, e = 21.)", "quantifier": "all takum64 other than 0 and NaR, all exponents in int64_t", "why_tests_cant": "2^128 pairs of arguments; false for few of them", "anchors": ["src/root.c: takum64_root", "src/codec.c: codec_takum64_from_s_and_l"]}
{"id": "C131", "title": "Absolute value and sign are multiplicative", "statement": "For takums a, b other than NaR of either kind and every width: |a*b| = |a|*|b| and sign(a*b) = sign(a)*sign(b); for b other than 0, |a/b| = |a|/|b| and sign(a/b) = sign(a)*sign(b); sign(a)*|a| = a.", "quantifier": "all takums other than NaR, both kinds, all widths", "why_tests_cant": "2^64 and more pairs of operands per width", "anchors": ["src/absolute.c", "src/sign.c", "src/multiplication.c", "src/division.c"]}
{"id": "C132", "title": "The absolute difference of linear takums behaves like a distance", "statement": "For linear takums a, b other than NaR, every width: |a-b| = |b-a|, and it is 0 exactly if a = b; |a+b| <= |a|+|b|; ||a|-|b|| <= |a-b|, where all operations are those of the API.", "quantifier": "all pairs of linear takums other than NaR, all widths", "why_tests_cant": "2^64 and more pairs of operands per width", "anchors": ["src/addition.c", "src/subtraction.c", "src/absolute.c"]}
{"id": "C133", "title": "The absolute difference of linear takums is a metric", "statement": "|a-c| <= |a-b| + |b-c| for linear takums, where all operations are those of the API. (False at every width because of rounding: a = 1, b = -d, c = -2d where 1+d is rounded to 1 and 1+2d is not.)", "quantifier": "all triples of linear takums other than NaR, all widths", "why_tests_cant": "2^96 and more triples of operands at 32 and 64 bits", "anchors": ["src/addition.c", "src/subtraction.c", "src/absolute.c"]}
{"id": "C134", "title": "Linear takums can be added up in any order", "statement": "Adding up linear takums of 16, 32 or 64 bits in any order (with any parentheses, for example pairwise or in parallel) gives the exact sum up to ((1+u)^d - 1) times the sum of the magnitudes, plus (1+u)^d 2^-254 per addition, where d is the nesting depth and u the roundoff of the width, as long as this stays in range. For summands that are not negative (0 or at least 2^-254) the relative error is at most (1+u)^d - 1, so two orders of the same summands agree up to that. At every width, the sum of takums that are not negative is not below any of them.", "quantifier": "all lists of takums of any length, all ways to order and bracket them, widths 16, 32, 64 (last part: all)", "why_tests_cant": "unboundedly many summands and orders", "anchors": ["src/addition.c: takum_linear16_addition, takum_linear32_addition, takum_linear64_addition"]}
{"id": "C135", "title": "Takums can be multiplied together in any order", "statement": "Multiplying together takums of 16, 32 or 64 bits of either kind in any order gives the exact product times a factor between (1-u)^m and (1+u)^m, where m is the number of multiplications (m u < 1/2), if the products of the parts in parentheses stay clear of the ends of the range. At every width the sign of the result is the product of the signs, and a sum or product in any order is NaR exactly if an operand is NaR.", "quantifier": "all lists of takums of any length, all ways to bracket them, both kinds", "why_tests_cant": "unboundedly many factors and orders", "anchors": ["src/multiplication.c: takum16_multiplication, takum32_multiplication, takum64_multiplication, takum_linear16_multiplication, takum_linear32_multiplication, takum_linear64_multiplication", "src/addition.c"]}
{"id": "C136", "title": "Addition and multiplication are associative and distributive", "statement": "(a+b)+c = a+(b+c) and a*(b+c) = a*b + a*c for linear takums, (a*b)*c = a*(b*c) for takums of either kind. (False at every width because of rounding.)", "quantifier": "all triples of takums other than NaR, all widths", "why_tests_cant": "2^96 and more triples of operands at 32 and 64 bits", "anchors": ["src/addition.c", "src/multiplication.c"]}
{"id": "C137", "title": "Computations made of several calls have a small relative error", "statement": "Take any computation with takums of 16, 32 or 64 bits of either kind: it starts with takums and, for linear takums, with calls of functions of the API on takums; the results are multiplied, divided, inverted, square rooted, raised to nonzero integer powers, added if they have the same sign, subtracted if they have different signs, and given to root (positive radicands) and hypotenuse. Every operation counts as one rounding (root, hypotenuse and sums of logarithmic takums as two; a j-th power multiplies the count by |j|). If the exact numbers on the way stay clear of the ends of the range and the number m of roundings satisfies m v <= 1/2 (v = u/(1-u), u the roundoff of the width), the result is a takum whose value is the exact one times e^d with |d| <= m v. Hence two computations of the same number agree up to the sum of their bounds, even with different mathematical libraries; for linear takums of 16 and 32 bits sin/cos and tan, sinh/cosh and tanh, exp a * exp b and exp(a+b) (where a+b is a takum), sqrt(a^2+b^2) and hypotenuse agree up to 4 v.", "quantifier": "all computations of any length and shape, all takums, both kinds, every mathematical library meeting the accuracy assumptions", "why_tests_cant": "unboundedly many computations over up to 2^64 takums per operand", "anchors": ["src/addition.c", "src/subtraction.c", "src/multiplication.c", "src/division.c", "src/inversion.c", "src/square_root.c", "src/integer_power.c", "src/tan.c", "src/hypotenuse.c", "src/root.c"]}
{"id": "C138", "title": "The random test inputs have full period", "statement": "The generators that supply the test harness with pseudo random takums of 8, 16, 32 and 64 bits have the longest possible period: from every state but 0 the next 2^n-1 states are the 2^n-1 bit patterns other than 0, each exactly once, and then the sequence repeats; no step has undefined behaviour. From 0 the generator continues as from the lower n bits of a rand(); it stays at 0 if these are 0.", "quantifier": "all states of all four widths, every number of steps, every behaviour of rand()", "why_tests_cant": "the period is 2^64-1 for 64 bits", "anchors": ["test/util.c: random_int8_next, random_int16_next, random_int32_next, random_int64_next, random_next"]}
{"id": "C139", "title": "Unit tests end and cover what they announce", "statement": "For every test block (whose list of integers, if any, is not empty and has no duplicates) whose checks are defined, the unit test of a type ends after exactly min(number of cases, limit) checks, all of cases of the block, and there is no other way for it to end. If the number of cases is at most the limit, every case (all takums, all pairs, all takums with all listed integers) has been checked, each exactly once.", "quantifier": "all test blocks, types, limits from 1 to 2^63, behaviours of rand()", "why_tests_cant": "the harness is what runs the tests; every block, function and seed is meant", "anchors": ["test/util.c: sampler_init, sampler_next, run_unit_test_on_type", "test/util.h: struct unit_test_block"]}
{"id": "C140", "title": "Random test cases are different", "statement": "No case is checked twice by a unit test if the first value of rand() is not a multiple of 2^n, except in tests of pairs with more than 2^n cases (C141).", "quantifier": "all test blocks, types, limits and behaviours of rand()", "why_tests_cant": "up to 2^63 samples from every seed", "anchors": ["test/util.c: sampler_next, random_next"]}
{"id": "C141", "title": "Random pairs are different", "statement": "The random cases of every unit test are different, also the 2^22 pairs of 16 bit takums.", "quantifier": "all functions of two takums and behaviours of rand()", "why_tests_cant": "every seed is meant; a repeated case is not reported", "anchors": ["test/util.c: sampler_next (TAKUM_TAKUM_RANDOM)"]}
{"id": "C142", "title": "The verdict of a unit test is right", "statement": "A unit test returns 0 exactly if the function gave an accepted result (the same takum for round trips, the expected value for predicates, the expected bit pattern up to one otherwise) for every checked case, and 1 otherwise; the printed numbers are the number of accepted and of checked cases. For types with at most 2^22 cases (unary functions of 8 and 16 bits, binary ones of 8 bits, functions of a takum and 7 integers of 8 and 16 bits) returning 0 means that every case is accepted. A test program returns the number of failing types; it returns 0 if all cases are accepted.", "quantifier": "all test blocks, types, functions and behaviours of rand()", "why_tests_cant": "the harness is what runs the tests; every tested function is meant", "anchors": ["test/util.c: check_unary_binary_case, run_unit_test_on_type, run_unit_test_block"]}
{"id": "C143", "title": "Passed unit tests settle where a function returns NaR", "statement": "If the unit tests of a function pass then it returns NaR for the checked arguments for which NaR is expected.", "quantifier": "all tested functions", "why_tests_cant": "this is about what passing tests imply", "anchors": ["test/util.c: check_unary_binary_case"]}
{"id": "C144", "title": "Comparing with the expected result is defined", "statement": "If the tested function and the reference are defined then the check of a case is defined.", "quantifier": "all test blocks and cases", "why_tests_cant": "undefined behaviour need not show", "anchors": ["test/util.c: check_unary_binary_case"]}
{"id": "C145", "title": "Every unit test ends", "statement": "Every unit test with defined checks ends, whatever its list of integers.", "quantifier": "all test blocks", "why_tests_cant": "a loop that does not end cannot be observed", "anchors": ["test/util.c: sampler_next (TAKUM_INT64_FULL), sampler_init, safe_uint64_multiplication"]}
{"id": "C146", "title": "The round trip test programs pass for every seed", "statement": "The test programs for the codec (test/codec.c) and for the conversions (test/conversion.c) return 0 on x86-64, and return nothing else, whatever rand() returns: the test of each of the eight types ends after min(2^n, 2^22) cases without undefined behaviour and reports all of them as passed. Test failures are thus never due to the choice of the random samples.", "quantifier": "all behaviours of rand(), all eight types, every mathematical library as accurate as C99 expects (for the logarithmic conversions)", "why_tests_cant": "a run of the tests uses one seed and samples 2^22 of the 2^32 and 2^64 takums", "anchors": ["test/codec.c: codec_utb, main", "test/conversion.c: conversion_float64_utb, conversion_extended_float_utb, conversion_float64_full_utb, float64_conversion_takum_linear64_roundtrip, main", "test/util.c: run_unit_test_block"]}
{"id": "C147", "title": "The test programs for addition and subtraction pass for every seed", "statement": "The test programs test/addition.c and test/subtraction.c return 0 on x86-64, and return nothing else, whatever rand() returns and whatever the mathematical library computes: for all eight types every case that can be sampled is free of undefined behaviour and the result of the library differs by at most one from the reference in long double, which is converted back to a takum.", "quantifier": "all behaviours of rand(), the kinds and widths named", "why_tests_cant": "a run of the tests uses one seed; for 16 bits (two operands), 32 and 64 bits it samples 2^22 of up to 2^128 cases", "anchors": ["test/addition.c: addition_utb, main", "test/subtraction.c: subtraction_utb, main", "test/util.c: evaluate_reference_function, run_unit_test_block"]}
{"id": "C148", "title": "The test programs for multiplication, division, square root and inversion pass for every seed", "statement": "The test programs test/multiplication.c, test/division.c, test/square_root.c and test/inversion.c return 0 on x86-64 whatever rand() returns: for every type every case that can be sampled is free of undefined behaviour and the result of the library differs by at most one from the reference in long double.", "quantifier": "all behaviours of rand(), the kinds and widths named, every mathematical library as accurate as C99 expects (for the logarithmic takums)", "why_tests_cant": "a run of the tests uses one seed; for 16 bits (two operands), 32 and 64 bits it samples 2^22 of up to 2^128 cases", "anchors": ["test/multiplication.c: multiplication_utb, main", "test/division.c: division_utb, main", "test/square_root.c: square_root_utb, main", "test/inversion.c: inversion_utb, main", "test/util.c: evaluate_reference_function, run_unit_test_block"]}
{"id": "C149", "title": "The test programs for the sign and the precision pass for every seed", "statement": "The test programs test/sign.c and test/precision.c return 0 on x86-64, and return nothing else, whatever rand() returns.", "quantifier": "all behaviours of rand(), the kinds and widths named, every mathematical library as accurate as C99 expects", "why_tests_cant": "a run of the tests uses one seed; for 16 bits (two operands), 32 and 64 bits it samples 2^22 of up to 2^128 cases", "anchors": ["test/sign.c: sign_utb, main", "test/precision.c: precision_utb, main", "test/util.c: evaluate_reference_function, run_unit_test_block"]}
{"id": "C150", "title": "The test program for the absolute value passes for 8 and 16 bits", "statement": "The tests of takum8, takum16, takum_linear8 and takum_linear16 in test/absolute.c end without undefined behaviour and report every case as passed.", "quantifier": "all behaviours of rand(), the kinds and widths named, every mathematical library as accurate as C99 expects", "why_tests_cant": "the test itself has undefined behaviour for the other widths (C151)", "anchors": ["test/absolute.c: absolute_utb, main", "test/util.c: evaluate_reference_function, run_unit_test_block"]}
{"id": "C151", "title": "The test program for the absolute value passes for every seed", "statement": "The test program test/absolute.c returns 0 whatever rand() returns.", "quantifier": "all behaviours of rand(), the kinds and widths named", "why_tests_cant": "NaR is sampled for a small share of the seeds, and the undefined behaviour need not show", "anchors": ["test/absolute.c: absolute_utb, main", "test/util.c: evaluate_reference_function, run_unit_test_block", "src/absolute.c: takum32_absolute, takum64_absolute"]}
{"id": "C152", "title": "The test programs for the elementary functions that cannot overflow pass for every seed", "statement": "For every function of one takum apart from the exponentials, sinh, cosh, sech and csch, the test block of its test program makes the program return 0 on x86-64, and nothing else, whatever rand() returns: for all eight types every case that can be sampled is free of undefined behaviour and the result of the library differs by at most one from the reference in long double, which is converted back to a takum.", "quantifier": "all behaviours of rand(), all eight types, 38 functions, every mathematical library as accurate as C99 expects", "why_tests_cant": "a run of the tests uses one seed and one mathematical library; for 32 and 64 bits it samples 2^22 of up to 2^64 cases", "anchors": ["test/ln.c: ln_utb, main", "test/lb.c: lb_utb, main", "test/lg.c: lg_utb, main", "test/sin.c: sin_utb, main", "test/cos.c: cos_utb, main", "test/tan.c: tan_utb, main", "test/cot.c: cot_utb, main", "test/sec.c: sec_utb, main", "test/csc.c: csc_utb, main", "test/arcsin.c: arcsin_utb, main", "test/arccos.c: arccos_utb, main", "test/arctan.c: arctan_utb, main", "test/arccot.c: arccot_utb, main", "test/arcsec.c: arcsec_utb, main", "test/arccsc.c: arccsc_utb, main", "test/tanh.c: tanh_utb, main", "test/coth.c: coth_utb, main", "test/arsinh.c: arsinh_utb, main", "test/arcosh.c: arcosh_utb, main", "test/artanh.c: artanh_utb, main", "test/arcoth.c: arcoth_utb, main", "test/arsech.c: arsech_utb, main", "test/arcsch.c: arcsch_utb, main", "test/util.c: evaluate_reference_function, run_unit_test_block"]}
{"id": "C153", "title": "The test programs for the hypotenuse and the angle of a point, and the programs of two blocks, pass for every seed", "statement": "The test programs test/hypotenuse.c and test/arctan2.c return 0 on x86-64, and nothing else, whatever rand() returns: for all eight types every case that can be sampled is free of undefined behaviour and the result of the library differs by at most one from the reference in long double. The programs that run two blocks and return the sum of the results (test/arctan2.c, test/ln.c, test/sin.c and similar) return 0.", "quantifier": "all behaviours of rand(), all eight types, every mathematical library as accurate as C99 expects", "why_tests_cant": "a run of the tests uses one seed and one mathematical library; for 16 bits and more it samples 2^22 of up to 2^128 pairs", "anchors": ["test/hypotenuse.c: hypotenuse_utb, main", "test/arctan2.c: arctan2_utb, arctan2_over_pi_utb, main", "test/ln.c: main", "test/util.c: evaluate_reference_function, run_unit_test_block"]}
{"id": "C154", "title": "The test programs for the exponential and hyperbolic functions that can over- or underflow pass for every seed", "statement": "The test programs for exp, exp_minus_1, 2_raised, 2_raised_minus_1, 10_raised, 10_raised_minus_1, sinh, cosh, sech and csch return 0 on x86-64, and nothing else, whatever rand() returns: for all eight types every case that can be sampled is free of undefined behaviour, and the result of the library differs by at most one from the reference in long double, where an overflow of the reference stands for the largest takum and an underflow for the smallest one of its sign.", "quantifier": "all behaviours of rand(), all eight types, every mathematical library as accurate as C99 expects", "why_tests_cant": "a run of the tests uses one seed and one mathematical library; for 32 and 64 bits it samples a small part of the takums", "anchors": ["test/util.c: evaluate_reference_function, run_unit_test_block", "test/exp.c: exp_utb, exp_minus_1_utb", "test/2_raised.c: two_raised_utb", "test/10_raised.c: ten_raised_utb", "test/sinh.c: sinh_utb", "test/cosh.c: cosh_utb", "test/sech.c: sech_utb", "test/csch.c: csch_utb"]}
