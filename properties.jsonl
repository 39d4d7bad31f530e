{"id": "C01", "title": "Nat addition is exact", "statement": "For non-NaN Nats a and b, a + b is the Nat whose value is exactly the mathematical sum, in canonical form (no superfluous high zero words), whichever operand is longer.", "quantifier": "every pair of canonical non-NaN Nats of any length", "why_tests_cant": "carry chains of unbounded length and unequal lengths; tests sample a handful of numbers", "anchors": ["src/bigint/nat_amd64.rs: add_inner, add_inner_by_adcx", "src/bigint/nat.rs: Add for Nat"]}
{"id": "C02", "title": "Nat subtraction is the absolute difference with the right sign flag", "statement": "a - b has value |a - b| in canonical form, and sub_with_sign/sub_assign_with_sign additionally report true exactly when a >= b (as their documentation says).", "quantifier": "every pair of canonical non-NaN Nats", "why_tests_cant": "borrow chains of unbounded length and the two operand orders", "anchors": ["src/bigint/nat_amd64.rs: sub_inner_with_sign, sub_inner", "src/bigint/nat.rs: sub_with_sign, sub_assign_with_sign"]}
{"id": "C03", "title": "Nat multiplication is exact", "statement": "For non-NaN Nats a and b the product a * b has value exactly a·b and is canonical; no 64-bit column accumulator ever loses a carry.", "quantifier": "every pair of canonical Nats whose word counts are below 2^32", "why_tests_cant": "the column accumulation overflows only for specific long carry patterns; sampling cannot exclude them", "anchors": ["src/bigint/nat_avx2.rs: mul_manuual_by_avx2, mul_inner", "src/bigint/nat.rs: Mul for Nat"]}
{"id": "C04", "title": "Nat division and remainder satisfy the division theorem and terminate", "statement": "For canonical a and canonical b > 0, q = a / b and r = a % b satisfy a = q·b + r and 0 <= r < b, are canonical, and the subtract-and-shift loops terminate; b = 0 panics.", "quantifier": "every canonical a and b, with b non-zero (and separately b = 0)", "why_tests_cant": "the loop runs a data-dependent number of times; termination and correctness need an invariant", "anchors": ["src/bigint/nat.rs: div_inner, rem_inner, u32_shl"]}
{"id": "C05", "title": "Nat operations with a machine-word operand agree with arithmetic", "statement": "For every Nat x and u32 w: x + w, x * w, x / w, x % w have the values of the mathematical operations (w != 0 for / and %), and x - w has value |x - w|.", "quantifier": "every canonical Nat and every u32", "why_tests_cant": "word-boundary carries and borrows over any number of words", "anchors": ["src/bigint/nat_amd64.rs: add_inner_basic, sub_inner_basic", "src/bigint/nat.rs: mul_inner_basic, div_inner_basic, rem_inner_basic"]}
{"id": "C06", "title": "Canonical form is preserved by every Nat operation", "statement": "Equality and ordering compare word lists, so every public operation applied to canonical Nats must return a canonical Nat; in particular two results with the same value compare equal.", "quantifier": "every operation and every canonical input", "why_tests_cant": "only particular inputs (carry word 0, borrow emptying the top word) expose a stale high zero word", "anchors": ["src/bigint/nat.rs: trim_head_zero_, PartialEq for Nat, mul_inner_basic, shl_inner, shr_inner, random", "src/bigint/nat_amd64.rs: sub_inner_basic"]}
{"id": "C07", "title": "Nat left shift multiplies by a power of two", "statement": "x << k has value x·2^k.", "quantifier": "every canonical Nat and every shift amount that fits in memory", "why_tests_cant": "all combinations of word shift and bit shift, and any length", "anchors": ["src/bigint/nat.rs: shl_inner"]}
{"id": "C08", "title": "Nat right shift is floor division by a power of two", "statement": "x >> k has value floor(x / 2^k).", "quantifier": "every canonical Nat and every shift amount", "why_tests_cant": "combinations of word part and bit part of the shift with any number of words; the existing tests miss the wrong ones", "anchors": ["src/bigint/nat.rs: shr_inner"]}
{"id": "C09", "title": "Nat bitwise operators agree bit by bit", "statement": "For every bit index i, bit i of a & b, a | b, a ^ b and a.and_not(b) is the boolean operation on bit i of a and b; !x flips exactly the bits below x.bits_len(). Results are canonical.", "quantifier": "every pair of canonical Nats and every bit index", "why_tests_cant": "operands of unequal lengths, trimming of cancelled high words", "anchors": ["src/bigint/nat.rs: bitand_inner, bitor_inner, bitxor_inner, and_not, not_inner"]}
{"id": "C10", "title": "Nat comparison is numeric order", "statement": "For non-NaN canonical Nats partial_cmp returns the numeric ordering and == is numeric equality; with a NaN operand == is false and partial_cmp is None.", "quantifier": "every pair of Nats", "why_tests_cant": "length-first comparison is right only under canonical form", "anchors": ["src/bigint/nat.rs: PartialEq for Nat, PartialOrd for Nat, partial_cmp_inner"]}
{"id": "C11", "title": "NaN is absorbing for Nat operators", "statement": "Every arithmetic, shift and bit operator with a NaN operand returns NaN and never panics, including division of NaN and by NaN.", "quantifier": "every operator and every other operand", "why_tests_cant": "must hold for each operator and every value of the other operand", "anchors": ["src/bigint/nat_macro.rs: nat_arith_ops1", "src/bigint/nat.rs: nan, is_nan"]}
{"id": "C12", "title": "Byte-string conversions of Nat round-trip", "statement": "from_le_bytes(x.to_le_bytes()) and from_be_bytes(x.to_be_bytes()) equal x; for any byte string the decoded value is the base-256 value of it; the encoding is minimal (no superfluous leading zero byte).", "quantifier": "every canonical Nat and every byte string", "why_tests_cant": "all lengths modulo 4 and all positions of leading zero bytes", "anchors": ["src/bigint/nat.rs: from_le_or_be_bytes, copy_to_le, copy_to_be, to_le_bytes, to_be_bytes, From<&[u8]>"]}
{"id": "C13", "title": "Number formatting of Nat denotes the number", "statement": "The {:x}, {:X}, {:b}, {:o} and {} renderings of x are the usual positional numerals of x with no superfluous leading zeros (and prefix only for the alternate flag).", "quantifier": "every canonical Nat", "why_tests_cant": "digit grouping across word boundaries (octal) and repeated division (decimal) for any length", "anchors": ["src/bigint/nat_macro.rs: nat_fmt", "src/bigint/nat.rs: Octal for Nat, Display for Nat"]}
{"id": "C14", "title": "Parsing a Nat computes the numeral's value", "statement": "A string of digits with an optional 0x/0X/0b/0B/0o prefix parses to the number it denotes; anything containing an invalid character is Err; parsing never panics.", "quantifier": "every string", "why_tests_cant": "any length, any mixture of valid and invalid characters", "anchors": ["src/bigint/nat.rs: FromStr for Nat, check_base, from_dec_str, from_bin_str, from_oct_str, from_hex_str"]}
{"id": "C15", "title": "Parse inverts format", "statement": "x.to_string().parse() and the same for the #x, #b, #o forms give back x.", "quantifier": "every canonical Nat", "why_tests_cant": "every value at every length", "anchors": ["src/bigint/nat.rs: FromStr for Nat, Display for Nat, Octal for Nat", "src/bigint/nat_macro.rs: nat_fmt"]}
{"id": "C16", "title": "Nat pow is exponentiation", "statement": "x.pow(b) has value x^b for non-NaN x, b.", "quantifier": "every canonical x and b", "why_tests_cant": "square-and-multiply over exponents of any length", "anchors": ["src/bigint/nat.rs: pow, pow_inner"]}
{"id": "C17", "title": "Nat pow_mod is modular exponentiation", "statement": "x.pow_mod(b, n) has value x^b mod n for n > 0.", "quantifier": "every canonical x, b, n", "why_tests_cant": "exponents and moduli of any length, n = 1 and n = 0 edge cases", "anchors": ["src/bigint/nat.rs: pow_mod, pow_mod_inner"]}
{"id": "C18", "title": "Nat exp (Montgomery / windowed) is modular exponentiation", "statement": "x.exp(b, n) has value x^b mod n for n > 0 and x^b for n = 0, regardless of which of the Montgomery, windowed or simple algorithms is selected.", "quantifier": "every canonical x, b, n", "why_tests_cant": "the three code paths depend on parity and length; the Montgomery path relies on an almost-reduced invariant", "anchors": ["src/bigint/nat.rs: exp, montgomery, exp_montogomery, exp_windowed"]}
{"id": "C19", "title": "Nat sqrt is the integer square root", "statement": "r = x.sqrt() satisfies r^2 <= x < (r+1)^2, and the Newton iteration terminates.", "quantifier": "every canonical Nat", "why_tests_cant": "Newton iteration: termination and exactness need an invariant", "anchors": ["src/bigint/nat.rs: sqrt"]}
{"id": "C20", "title": "Karatsuba multiplication equals schoolbook multiplication", "statement": "a.mul_karatsuba(b) has the same value as a * b for operands of every size, above and below the threshold and for unbalanced lengths; the in-place buffer is never read or written out of bounds.", "quantifier": "every pair of canonical Nats", "why_tests_cant": "recursion depth and signed middle product depend on the data and lengths; raw pointers", "anchors": ["src/bigint/nat.rs: mul_karatsuba, mul_by_karatsuba, karatsuba, karatsuba_add, karatsuba_sub, basic_mul, add_at, karatsuba_len"]}
{"id": "C21", "title": "Nat squaring equals multiplication by itself", "statement": "x.sqr() has value x^2 for operands of every size.", "quantifier": "every canonical Nat", "why_tests_cant": "three algorithms selected by length, recursion, raw pointers", "anchors": ["src/bigint/nat.rs: sqr, sqr_v, basic_sqr, karatsuba_sqr"]}
{"id": "C22", "title": "clone shares, deep_clone isolates", "statement": "After any sequence of operations, a value obtained by deep_clone is never changed by op-assign on another handle, whereas handles related by clone always observe the same number; binary operators by value (a + b) never modify a handle the caller kept.", "quantifier": "every history of clone, deep_clone, binary operators and op-assign on any number of handles", "why_tests_cant": "aliasing depends on the whole history", "anchors": ["src/bigint/nat.rs: struct Nat, deep_clone, as_mut_vec", "src/bigint/nat_macro.rs: nat_arith_ops1"]}
{"id": "C23", "title": "Nat random stays below its bound", "statement": "x.random(rng) is numerically in [0, x) for every x > 0 and NaN for x = 0 or NaN, whatever the generator returns, as long as the generator eventually yields.", "quantifier": "every canonical x and every generator output stream (including interleaved errors)", "why_tests_cant": "for every random stream", "anchors": ["src/bigint/nat.rs: random, random_inner"]}
{"id": "C24", "title": "The primality test is right where it claims certainty", "statement": "probably_prime_test returns exactly primality for values below 128, and returns false for every even value and every proper multiple of a prime up to 53.", "quantifier": "every canonical Nat, every round count, every generator stream", "why_tests_cant": "over all streams and all numbers", "anchors": ["src/bigint/nat.rs: probably_prime_test, rem_inner_u32, rem_inner_u64"]}
{"id": "C25", "title": "The primality test never rejects a prime", "statement": "If n is prime, probably_prime_test returns true for every generator stream.", "quantifier": "every prime and every generator stream", "why_tests_cant": "over all primes and all random streams", "anchors": ["src/bigint/nat.rs: probably_prime_test, miller_rabin_witness, prime_validate_by_miller_rabin, prime_validate_by_lucas"]}
{"id": "C26", "title": "generate_prime returns a number of exactly the requested bit length that passes the test", "statement": "Ok(p) implies p.bits_len() equals the requested length and p passed probably_prime_test; lengths below 2 give Err; for tiny lengths the result really is prime.", "quantifier": "every length, round count and generator stream", "why_tests_cant": "over all random streams", "anchors": ["src/bigint/nat.rs: generate_prime"]}
{"id": "C27", "title": "Bit queries of Nat agree with the number", "statement": "bits_len is 1 for zero and floor(log2 x)+1 otherwise; is_set_bit(i) is Some(bit i) below bits_len and None from there; trailling_zeros is the 2-adic valuation for x > 0.", "quantifier": "every canonical Nat and index", "why_tests_cant": "all lengths and positions", "anchors": ["src/bigint/nat.rs: bits_len, is_set_bit, is_set_bit_, trailling_zeros, set_bits, sticky"]}
{"id": "C28", "title": "The portable and the x86-64/AVX2 arithmetic back ends agree", "statement": "For equal canonical inputs the generic add/sub/mul routines and the intrinsics-based ones return identical word lists (so the numbers do not depend on the build target).", "quantifier": "every pair of canonical Nats", "why_tests_cant": "two implementations over all inputs; only one is compiled into any test run", "anchors": ["src/bigint/nat_amd64.rs", "src/bigint/nat_avx2.rs", "src/bigint/nat_generic.rs"]}
{"id": "C29", "title": "Word-vector primitives compute what their contracts say", "statement": "The multi-word add/sub/shift/multiply-accumulate primitives return a vector and an outgoing carry such that vector + carry·2^(32n) (or the borrow equation) is the mathematical result.", "quantifier": "every vector length, content and carry-in", "why_tests_cant": "carry chains of any length", "anchors": ["src/bigint/arith_generic.rs: add_vv_inner, sub_vv_inner, add_vw_inner, sub_vw_inner, shl_vu_inner, shr_vu_inner, mul_add_vww, add_mul_vvw_inner, div_ww, mul_add_www"]}
{"id": "C30", "title": "BigInt addition, subtraction, multiplication and negation are the ring operations on Z", "statement": "For non-NaN canonical BigInts the results of +, -, *, unary - and abs have exactly the integer values and are canonical.", "quantifier": "every pair of integers, all sign combinations", "why_tests_cant": "all sign and magnitude combinations at any length", "anchors": ["src/bigint/bigint.rs: add_inner, sub_inner, mul_inner, neg_inner, abs"]}
{"id": "C31", "title": "BigInt / truncates and % has the sign of the dividend", "statement": "a / b and a % b are truncated quotient and remainder: a = (a/b)·b + a%b, |a%b| < |b|, sign of remainder that of a; b = 0 panics.", "quantifier": "every pair of integers with b non-zero", "why_tests_cant": "all signs and sizes", "anchors": ["src/bigint/bigint.rs: div_inner, rem_inner"]}
{"id": "C32", "title": "Zero is never negative", "statement": "No operation on BigInts yields a negative zero: is_negative() is false and == 0 is true for every result whose value is 0.", "quantifier": "every operation and operand pair", "why_tests_cant": "only exact cancellation exposes it", "anchors": ["src/bigint/bigint.rs: rem_inner, BISign, PartialEq for BigInt, PartialEq<u32> for BigInt"]}
{"id": "C33", "title": "Euclidean division", "statement": "a.rem_euclid(n) is the unique r in [0, |n|) with n | a - r, and a.div_euclid(n) is the matching quotient.", "quantifier": "every a and every non-zero n", "why_tests_cant": "all signs, exact multiples in particular", "anchors": ["src/bigint/bigint.rs: rem_euclid, rem_euclid_inner, div_euclid, div_euclid_inner"]}
{"id": "C34", "title": "BigInt bit operators are two's complement", "statement": "Bit i of a & b, a | b, a ^ b, a.and_not(b), !a equals the boolean operation on the infinite two's complement expansions.", "quantifier": "every pair of integers, all sign combinations, every bit index", "why_tests_cant": "the four sign cases at any length", "anchors": ["src/bigint/bigint.rs: bitand_inner, bitor_inner, bitxor_inner, and_not_assign, Not for BigInt"]}
{"id": "C35", "title": "BigInt shifts are multiplication and floor division by powers of two", "statement": "x << k has value x·2^k and x >> k has value floor(x / 2^k).", "quantifier": "every integer and shift amount", "why_tests_cant": "negative numbers, word-boundary shifts", "anchors": ["src/bigint/bigint.rs: shl_inner, shr_inner"]}
{"id": "C36", "title": "BigInt comparison is numeric order", "statement": "partial_cmp and == agree with the order on the integers; NaN is unordered.", "quantifier": "every pair of canonical BigInts", "why_tests_cant": "all sign combinations and lengths", "anchors": ["src/bigint/bigint.rs: PartialEq for BigInt, PartialOrd for BigInt, signnum"]}
{"id": "C37", "title": "gcd returns the greatest common divisor with Bezout coefficients", "statement": "a.gcd(b) = (d, x, y) with d = gcd(|a|,|b|) and a·x + b·y = d, and the recursion terminates.", "quantifier": "every pair of integers", "why_tests_cant": "recursion depth depends on data; all sign combinations", "anchors": ["src/bigint/bigint.rs: gcd, gcd_extend"]}
{"id": "C38", "title": "mod_inverse inverts", "statement": "When gcd(a, n) = 1 and n is not 0, a.mod_inverse(n) is in [0,|n|) and a·inverse = 1 mod |n|; when they are not coprime the result is NaN (as documented for exp).", "quantifier": "every a and n", "why_tests_cant": "all pairs and signs", "anchors": ["src/bigint/bigint.rs: mod_inverse"]}
{"id": "C39", "title": "solve_mod_linear_equation returns exactly the solutions", "statement": "a.solve_mod_linear_equation(b, n) is Some(list of all x in [0,|n|) with a·x = b mod n, without duplicates) if there is a solution, and None otherwise.", "quantifier": "every a, b and n non-zero", "why_tests_cant": "completeness quantifies over all x and all inputs", "anchors": ["src/bigint/bigint.rs: solve_mod_linear_equation"]}
{"id": "C40", "title": "mul_range and binomial", "statement": "mul_range(a, b) is the product of all integers from a to b (1 if a > b); binomial(n, k) is n!/(k!(n-k)!) for 0 <= k <= n.", "quantifier": "every i64 pair (product not bounded)", "why_tests_cant": "recursion over ranges of any size", "anchors": ["src/bigint/bigint.rs: mul_range, binomial", "src/bigint/nat.rs: mul_range"]}
{"id": "C41", "title": "BigInt exp is modular exponentiation", "statement": "x.exp(b, n) is x^b mod |n| in [0,|n|) for n non-zero and b >= 0, and uses the modular inverse for b < 0; for n = 0 and b >= 0 it is x^b.", "quantifier": "every x, b, n", "why_tests_cant": "sign handling over all inputs", "anchors": ["src/bigint/bigint.rs: exp"]}
{"id": "C42", "title": "jacobi computes the Jacobi symbol", "statement": "a.jacobi(b) for odd b is the Jacobi symbol (a/b) (Some(-1|0|1)); it is multiplicative in a, depends only on a mod b, and terminates.", "quantifier": "every a and odd b", "why_tests_cant": "number-theoretic, every pair", "anchors": ["src/bigint/bigint.rs: jacobi"]}
{"id": "C43", "title": "mod_sqrt returns a square root", "statement": "If a.mod_sqrt(p) is Some(x) then x^2 = a mod p for an odd prime p; None exactly when a is not a square.", "quantifier": "every a and odd prime p", "why_tests_cant": "every residue class and every prime; three algorithms", "anchors": ["src/bigint/bigint.rs: mod_sqrt, mod_sqrt_3mod4, mod_sqrt_5mod8, mod_sqrt_tonelli_shanks"]}
{"id": "C44", "title": "BigInt sqrt", "statement": "For x >= 0, r = x.sqrt() satisfies r >= 0 and r^2 <= x < (r+1)^2 (the documentation says ceiling); negative input gives NaN.", "quantifier": "every integer", "why_tests_cant": "Newton iteration", "anchors": ["src/bigint/bigint.rs: sqrt"]}
{"id": "C45", "title": "BigInt conversions, parsing and printing are exact", "statement": "From<iN/uN> preserve the value (including iN::MIN); parsing '-' digits and printing are inverse.", "quantifier": "every machine integer, every integer, every string", "why_tests_cant": "extremes and all lengths", "anchors": ["src/bigint/bigint.rs: FromStr for BigInt", "src/bigint/bigint_macro.rs: bigint_from_basici, bigint_fmt_impl"]}
{"id": "C46", "title": "BigInt is_set_bit is the two's complement bit", "statement": "x.is_set_bit(i) is bit i of the infinite two's complement expansion within the stated length.", "quantifier": "every integer and index", "why_tests_cant": "negative numbers at word boundaries", "anchors": ["src/bigint/bigint.rs: is_set_bit, bits_len"]}
{"id": "C47", "title": "Rat values are kept in lowest terms with positive denominator", "statement": "Every Rat produced by the constructors and operators has denominator > 0 and coprime numerator and denominator (0 as 0/1).", "quantifier": "every constructor/operator and every input", "why_tests_cant": "invariant over all histories", "anchors": ["src/bigint/rat.rs: norm, from_frac, from_frac_bigint, inv, FromStr for Rat"]}
{"id": "C48", "title": "Rat arithmetic is the field of rationals", "statement": "a + b, a - b, a * b, a / b (b != 0), -a, abs, inv equal the exact rational results, whatever representation the operands have.", "quantifier": "every pair of rationals", "why_tests_cant": "all numerators/denominators", "anchors": ["src/bigint/rat.rs: add_inner, sub_inner, mul_inner, div_inner, mul_denom, scale_denom, inv"]}
{"id": "C49", "title": "Rat comparison is the order on the rationals", "statement": "partial_cmp and == agree with cross multiplication, also between unreduced representations; NaN is unordered.", "quantifier": "every pair of rationals with positive denominators", "why_tests_cant": "all pairs", "anchors": ["src/bigint/rat.rs: cmp_inner, PartialEq for Rat, PartialOrd for Rat"]}
{"id": "C50", "title": "Rat::from_f64 is exact", "statement": "For every finite f64 the resulting rational equals the float's exact value; non-finite gives NaN.", "quantifier": "all 2^64 bit patterns", "why_tests_cant": "2^64 inputs", "anchors": ["src/bigint/rat.rs: from_f64"]}
{"id": "C51", "title": "Rat::to_f64 / to_f32 round to nearest even", "statement": "to_f64 returns the nearest double (ties to even), and the flag is true exactly when it is exact; never panics.", "quantifier": "every rational", "why_tests_cant": "every quotient, subnormals, overflow", "anchors": ["src/bigint/rat.rs: to_f64, quo_to_f64, to_f32, quo_to_f32", "src/bigint/util.rs: ldexp, frexp"]}
{"id": "C52", "title": "Rat parsing", "statement": "'a/b', 'a' parse to the rational a/b; denominator 0 or garbage is Err.", "quantifier": "every string", "why_tests_cant": "every string", "anchors": ["src/bigint/rat.rs: FromStr for Rat"]}
{"id": "C53", "title": "Float rounding is correct in all six modes", "statement": "Rounding a float to prec bits yields the correctly rounded value for the mode and reports the accuracy (Below/Exact/Above) truthfully.", "quantifier": "every mantissa, precision, sign and mode", "why_tests_cant": "every bit pattern below the cut and every carry-out", "anchors": ["src/bigint/float.rs: round, set_precision"]}
{"id": "C54", "title": "Float add, sub and mul are correctly rounded", "statement": "x + y, x - y, x * y for finite x, y equal the exact real result rounded to the receiver precision and mode, including signed zeros and infinities.", "quantifier": "every pair of floats, precision and mode", "why_tests_cant": "all pairs", "anchors": ["src/bigint/float.rs: uadd, usub, umul, add_inner, sub_inner, mul_inner"]}
{"id": "C55", "title": "Float division is correctly rounded", "statement": "x / y equals the exact quotient rounded to the receiver precision; special cases as IEEE.", "quantifier": "every pair of floats", "why_tests_cant": "all pairs", "anchors": ["src/bigint/float.rs: uquo, div_inner"]}
{"id": "C56", "title": "Float conversions from integers are exact and back-truncation is right", "statement": "From<u64/Nat/BigInt> give exactly the integer; truncate_to_u64/i64 give the truncated value with the right accuracy, saturating.", "quantifier": "every integer / float", "why_tests_cant": "all values", "anchors": ["src/bigint/float.rs: set_nat, set_bits, set_i64, truncate_to_u64, truncate_to_i64"]}
{"id": "C57", "title": "Float comparison is numeric", "statement": "partial_cmp orders floats by value with -0 == +0 and infinities at the ends; NaN unordered.", "quantifier": "every pair of floats", "why_tests_cant": "mantissas of different word lengths", "anchors": ["src/bigint/float.rs: cmp_inner, ucmp, ord"]}
{"id": "C58", "title": "Float to_f32/to_f64 round to nearest", "statement": "to_f64 returns the double nearest to x (ties to even) and truthful accuracy, incl. subnormals and overflow.", "quantifier": "every float", "why_tests_cant": "all exponents and mantissas", "anchors": ["src/bigint/float.rs: to_f32, to_f64"]}
{"id": "C59", "title": "Decimal text of a Float denotes the value", "statement": "Display shows the exact decimal value rounded to the requested digits; parsing a decimal literal gives the float nearest to it.", "quantifier": "every float / literal", "why_tests_cant": "digits of any length", "anchors": ["src/bigint/float_fmt.rs: fmt_inner, fmt_for_display, FromStr for Float", "src/bigint/decimal.rs: Decimal::new, round, shr_inner"]}
{"id": "C60", "title": "Integer structure queries on Float", "statement": "is_integer, required_min_precision, mant_exp and set_mant_exp satisfy x = mant·2^exp with 0.5 <= |mant| < 1, is_integer iff the value is an integer, and required_min_precision is the least precision that represents x exactly.", "quantifier": "every float", "why_tests_cant": "all mantissas/exponents", "anchors": ["src/bigint/float.rs: is_integer, required_min_precision, mant_exp, set_mant_exp"]}
{"id": "C61", "title": "Linear congruential generator follows its recurrence", "statement": "Each output is (a·x + c) mod m of the previous output for every parameter set and seed; outputs are < m; equal seeds give equal sequences.", "quantifier": "every seed, a, c, m and every step", "why_tests_cant": "every parameter set and history; wrap-around in the product", "anchors": ["src/rand/linear_congruential_rand.rs: gen, reset, new, minstd_rand0"]}
{"id": "C62", "title": "Mersenne twister is deterministic, in range and restartable", "statement": "Outputs are < 2^w, equal seeds give equal sequences, and reset(seed) makes the generator behave as freshly created whatever was drawn before.", "quantifier": "every parameter set, seed, history", "why_tests_cant": "over all histories", "anchors": ["src/rand/mersenne_twister_rand.rs: check_init, gen_rand, gen, reset"]}
{"id": "C63", "title": "mt19937 conforms to the published generator", "statement": "With the mt19937 parameters the output sequence is the MT19937 sequence (tempering y ^= (y<<s)&b, y ^= (y<<t)&c).", "quantifier": "every seed and output index", "why_tests_cant": "every seed and step", "anchors": ["src/rand/mersenne_twister_rand.rs: gen, mt19937"]}
{"id": "C64", "title": "Lagged Fibonacci generator follows subtract-with-carry", "statement": "Outputs follow x_i = (x_{i-s} - x_{i-r} - carry) mod 2^w with the carry being the borrow, stay below 2^w, and reset restarts it.", "quantifier": "every parameter set, seed and step", "why_tests_cant": "over all histories", "anchors": ["src/rand/lagged_fibonacci_rand.rs: check_init, gen, reset"]}
{"id": "C65", "title": "Random iterators stop at an error and resume after clear_error", "statement": "Iter::next yields generator values in order; after an error it returns None until clear_error, and never skips a value.", "quantifier": "every generator behaviour and call history", "why_tests_cant": "over all histories", "anchors": ["src/rand/iter.rs: Iter::next, last_error, clear_error"]}
{"id": "C66", "title": "OS entropy is never handed out twice", "statement": "Successive gen_random requests of any sizes are filled with consecutive fresh system-random bytes: no byte of the internal buffer is delivered twice, and requests are filled completely or reported as error.", "quantifier": "every history of request sizes and system call results", "why_tests_cant": "over all histories", "anchors": ["src/os/linux/mod.rs: BCrypt::gen_random"]}
{"id": "C67", "title": "Slice shift and slice division primitives", "statement": "shl_vu returns the bits shifted out of the top word, and div_wvw divides the little-endian word vector (like every other primitive of the file reads it).", "quantifier": "every vector, shift below 32 and divisor", "why_tests_cant": "all contents; both functions are unused by the crate and untested", "anchors": ["src/bigint/arith_generic.rs: shl_vu, div_wvw"]}
{"id": "C68", "title": "exp does not panic when overflow checks are on", "statement": "In a build with overflow checks (debug profile) x.exp(b, n) returns a value for all operands.", "quantifier": "every canonical x, b, n", "why_tests_cant": "the shift by 32 needs an exponent whose top word is exactly 1", "anchors": ["src/bigint/nat.rs: exp (v <<= shift)"]}
{"id": "C69", "title": "Mersenne twister accepts the documented parameters", "statement": "MersenneTwisterRand::new succeeds exactly for the parameter ranges of its documentation (0<w<=bits, 1<=m<=n, 0<r<w, 0<a,d,b,c,f<=2^w-1, 0<u,s,t<w, 0<=l<w).", "quantifier": "every parameter set", "why_tests_cant": "14 parameters of 32 or 64 bits", "anchors": ["src/rand/mersenne_twister_rand.rs: MersenneTwisterRand::new"]}
{"id": "C70", "title": "A failed entropy request reveals nothing", "statement": "When gen_random reports an error, no byte that a later request delivers is visible in the caller's buffer.", "quantifier": "every request and system call result", "why_tests_cant": "depends on short reads of the system call", "anchors": ["src/os/linux/mod.rs: BCrypt::gen_random"]}
{"id": "C71", "title": "Compound assignment with a clone of the same value", "statement": "x op= x.clone() leaves x with the value x op x had on independent copies, for op in + - * / % & | ^, although the clone shares storage with x.", "quantifier": "every value and every operator", "why_tests_cant": "shared storage is invisible to a single unit test and the faulty operator hangs or aborts instead of giving a wrong number", "anchors": ["src/bigint/nat.rs: rem_inner, div_inner", "src/bigint/nat_macro.rs: op-assign impls", "src/bigint/nat_avx2.rs: mul_inner"]}
{"id": "C72", "title": "Rat constructors from integers are exact", "statement": "Rat::from_frac(n, d) and from_frac_bigint(n, d) with d != 0 return Ok of exactly n/d and Err for d = 0; From of machine integers, Nat and BigInt keeps the value.", "quantifier": "every isize pair, every pair of integers", "why_tests_cant": "isize::MIN and sign combinations", "anchors": ["src/bigint/rat.rs:45-69", "src/bigint/rat.rs:637-675"]}
{"id": "C73", "title": "Rat predicates agree with the value", "statement": "is_integer is Some(true) exactly for integral values and signnum is the sign of the value; both are None for NaN; equal values give equal answers.", "quantifier": "every rational, whatever its representation", "why_tests_cant": "unreduced representations reachable by parsing", "anchors": ["src/bigint/rat.rs:388-399"]}
{"id": "C74", "title": "Parsing inverts formatting of Rat", "statement": "For every Rat r, the text of Display, and of {:#x}, {:#X}, {:#o}, {:#b}, parses back to a Rat equal to r.", "quantifier": "every rational", "why_tests_cant": "all signs, zero, all magnitudes", "anchors": ["src/bigint/rat.rs:677-767"]}
{"id": "C75", "title": "NaN propagates through Rat operations", "statement": "An operation of Rat with a NaN operand gives NaN (comparison: None, == false), by-value and assigning forms alike; and only 0 as divisor makes an operator panic.", "quantifier": "every pair of Rats, NaN included", "why_tests_cant": "every operator in both forms", "anchors": ["src/bigint/rat.rs:517-635"]}
{"id": "C76", "title": "From<f64> and From<f32> for Float are exact", "statement": "Converting any finite double or single to a Float gives the same value with accuracy Exact; zeros keep their sign, infinities and NaN map to themselves.", "quantifier": "every bit pattern", "why_tests_cant": "all 2^64 patterns incl. subnormals and their normalisation", "anchors": ["src/bigint/float.rs: set_f64", "src/bigint/util.rs: frexp, normalize"]}
{"id": "C77", "title": "BigInt random keeps the sign of its bound", "statement": "x.random(rng) lies in [0, x) for positive x and in (x, 0] for negative x, zero is never negative, and NaN or zero as bound gives NaN.", "quantifier": "every canonical BigInt and every generator stream", "why_tests_cant": "over all bounds and streams", "anchors": ["src/bigint/bigint.rs: random"]}
{"id": "C78", "title": "A base that violates Fermat's congruence makes the primality test answer no", "statement": "If probably_prime_test accepts n >= 128, every base it drew satisfies a^(n-1) = 1 modulo n; equivalently one Fermat witness among the drawn bases rejects n. generate_prime documents its error bound on this.", "quantifier": "every n, round count and generator stream", "why_tests_cant": "over all composites and all streams", "anchors": ["src/bigint/nat.rs: miller_rabin_witness, prime_validate_by_miller_rabin, probably_prime_test"]}
{"id": "C79", "title": "Compound assignment of BigInt gives what the operator gives", "statement": "x op= y leaves in x exactly what x op y returns, whether or not x and y share storage, and changes no handle that does not share storage with x.", "quantifier": "every history of handles, every operator, every pair of handles", "why_tests_cant": "depends on the sharing history of the handles", "anchors": ["src/bigint/bigint.rs: add_inner .. bitxor_inner, and_not_assign", "src/bigint/bigint_macro.rs: bigint_ops_impl"]}
{"id": "C80", "title": "Clones of a BigInt denote the same number", "statement": "clone shares ownership of the data: after any history all clones of one BigInt show the same number, and handles that are not clones are isolated.", "quantifier": "every history of handles", "why_tests_cant": "depends on the history of all handles", "anchors": ["src/bigint/bigint.rs: struct BigInt, Clone, deep_clone"]}
{"id": "C81", "title": "The error of probably_prime_test is at most 2^-n", "statement": "For a composite number, of all the sequences of bases the test may draw in its n+1 Miller-Rabin rounds, at most the share 2^-(n+1) (the documentation promises 2^-n) leads to the answer true.", "quantifier": "every composite number, every number of rounds, every set of base sequences", "why_tests_cant": "a statement on the share among n^rounds base sequences", "anchors": ["src/bigint/nat.rs: probably_prime_test, prime_validate_by_miller_rabin, miller_rabin_witness"]}
{"id": "C82", "title": "Writing through one Float handle does not disturb the others", "statement": "set_precision, set_mode, set_mant_exp and the compound assignments change only the Float they are called on: clones taken earlier, deep clones and results of by-value operators keep their value. (Float::clone shares the mantissa vector.)", "quantifier": "every program of creations, clones, deep clones, operators and in-place methods, every handle", "why_tests_cant": "the sharing pattern and the history are unbounded; tests compare a result right away and never look at the clone again", "anchors": ["src/bigint/float.rs: Float (derive Clone), deep_clone, round, set_precision, set_mant_exp, set_float, uadd, usub, umul, uquo, add_inner, sub_inner"]}
{"id": "C83", "title": "x op= y.clone() on Float gives what x op y gives", "statement": "For +, -, *, / the compound assignment leaves in x the same number with the same attributes as the by-value operator returns, also when y shares its mantissa with x.", "quantifier": "every reachable state, every operator, every pair of handles", "why_tests_cant": "all sharing patterns and histories; the difference shows only when two handles share a mantissa and differ in exponent or form", "anchors": ["src/bigint/float.rs: add_assign, sub_assign, mul_assign, div_assign, uadd, usub, umul, uquo, set_float"]}
{"id": "C84", "title": "A Rat keeps its value until it is assigned", "statement": "After y = x.clone(), or n = x.numerator().clone(), assigning to x does not change y, and assigning to n does not change x; x op= y gives what x op y gives however the two share their storage.", "quantifier": "every program of creations, clones, operators, assignments and handles to numerators and denominators; every Rat", "why_tests_cant": "histories and sharing patterns are unbounded; tests use each value once", "anchors": ["src/bigint/rat.rs: Rat (derive Clone), clear, numerator, denominator, add_assign, sub_assign, mul_assign, div_assign"]}
{"id": "C85", "title": "Cloned entropy sources do not hand out the same bytes", "statement": "CryptoRand and BCrypt can be cloned; the bytes handed out by a handle and its clones are all distinct system bytes: no byte the system gave is delivered by two handles.", "quantifier": "every program of creations, clones and requests, every behaviour of the system call", "why_tests_cant": "short reads and the moment of cloning are unbounded; the system call almost never returns short in a test", "anchors": ["src/os/linux/mod.rs: BCrypt (derive Clone), gen_random", "src/rand/crypto_rand.rs: CryptoRand (derive Clone)"]}
{"id": "C86", "title": "A failed hardware draw is reported, never handed out", "statement": "On x86 and x86-64, DefaultRand, CryptoRand and DefaultSeed return a word only when rdrand or rdseed signalled success; iterating yields exactly the successful draws in order.", "quantifier": "every hardware behaviour, every use of the iterator", "why_tests_cant": "the instruction practically never fails on a test machine", "anchors": ["src/rand/default_rand_amd64.rs: gen_u32, gen_u64", "src/rand/default_seed_amd64.rs: rdseed_u32, rdseed_u64", "src/rand/crypto_rand_amd64.rs: gen"]}
{"id": "C87", "title": "Machine floats survive the way through Rat and Float", "statement": "Converting a finite f32 or f64 to Rat or Float and back to the same format returns the very same bit pattern, reported as exact.", "quantifier": "all finite bit patterns of both formats, subnormals and both signs included", "why_tests_cant": "2^64 + 2^32 patterns; two conversions with independent rounding, cast and sign code must fit together", "anchors": ["src/bigint/rat.rs: From<f32>, From<f64>, to_f32, to_f64", "src/bigint/float.rs: From<f32>, to_f32"]}
{"id": "C88", "title": "Float sign operations", "statement": "neg denotes the exact negation, abs the exact absolute value, precision, mode and accuracy kept; signnum and is_negative report the sign of the number; negation reverses the comparison order; set_mode changes nothing but the mode and the accuracy mark.", "quantifier": "all well-formed Floats: finite, zeros, infinities, NaN, any precision and mode", "why_tests_cant": "every mantissa length, precision and mode; signed zeros and infinities", "anchors": ["src/bigint/float.rs: signnum, abs, Neg, is_negative, is_infinite, get_inf, set_mode"]}
{"id": "C89", "title": "From<Rat> for Float", "statement": "Float::from(r) is the exact value when r is an integer, and the correctly rounded quotient otherwise; NaN stays NaN.", "quantifier": "every rational", "why_tests_cant": "every numerator and denominator", "anchors": ["src/bigint/float.rs: set_rat, From<Rat>"]}
{"id": "C90", "title": "BigInt formatting: sign, prefix, numeral", "statement": "Hex, octal and binary formatting print a minus sign for negative numbers, the base prefix if and only if '#' is given, and the numeral of the magnitude in the right case; different numbers print differently.", "quantifier": "every integer, both alternate settings", "why_tests_cant": "all lengths and digits", "anchors": ["src/bigint/bigint_macro.rs: bigint_fmt_impl", "src/bigint/bigint.rs: bigint_fmt_impl!"]}
{"id": "C91", "title": "Windows: a provider handle is closed exactly once and never used closed", "statement": "Whatever a program does with AlgorithmHandle and BCrypt variables (open, move, clone, draw, drop), the system sees each provider closed exactly once, used only while open, and open exactly as long as some variable reaches it.", "quantifier": "all programs, all answers of the system, recycled handle values", "why_tests_cant": "unbounded interleavings of clones and drops; a double close corrupts another handle silently", "anchors": ["src/os/windows/bcrypt.rs: AlgorithmHandle, Drop, BCrypt, Clone", "src/rand/crypto_rand.rs: new"]}
{"id": "C92", "title": "Windows: provider names are NUL-terminated", "statement": "Each constructor hands the system texts that denote the intended provider and algorithm, whatever lies behind the buffers in memory.", "quantifier": "all memory contents", "why_tests_cant": "reads past the end of a buffer usually find a zero by luck", "anchors": ["src/os/windows/bcrypt.rs: ms_primitive_provider, ms_platform_crypto_provider, auto_select_provider"]}
{"id": "C93", "title": "Windows: a successful draw fills the whole buffer", "statement": "After Ok, every byte of the caller's buffer was written by the system; an error of the system is reported; CryptoRand words are the system's bytes, little endian.", "quantifier": "all buffer lengths and all system answers", "why_tests_cant": "lengths from 2^32 bytes on; failures of the system", "anchors": ["src/os/windows/bcrypt.rs: gen_random", "src/rand/crypto_rand.rs: gen"]}
{"id": "C94", "title": "The comparison operators obey the laws of PartialEq and PartialOrd", "statement": "For Nat, BigInt, Rat and Float: two values are comparable exactly when neither is NaN; == holds exactly when partial_cmp is Some(Equal); every value but NaN equals itself; a < b exactly when b > a; each of <, ==, > is transitive; equal values compare alike with every third value. Signed zeros (which the operators can produce) are included, so sorting or using the values as ordered keys is sound even where the order is not the numeric one.", "quantifier": "all pairs and triples of values of the four types, any sign, any length, any precision", "why_tests_cant": "triples of unbounded numbers, with signed zeros and NaN in every position; the standard library relies on the laws without checking them", "anchors": ["src/bigint/nat.rs PartialOrd/PartialEq", "src/bigint/bigint.rs PartialOrd/PartialEq", "src/bigint/rat.rs PartialOrd/PartialEq", "src/bigint/float.rs PartialOrd/PartialEq"]}
{"id": "C95", "title": "NaN is contagious for BigInt", "statement": "An operation of BigInt with a NaN operand gives NaN: + - * / % & | ^ and_not, shifts, negation, abs, and the number theory functions (gcd, mod_inverse, jacobi, mod_sqrt, exp, equation solving); no operation turns a NaN back into a number. A zero divisor still panics.", "quantifier": "all BigInts of any length and both signs, in either operand position", "why_tests_cant": "the NaN may carry either sign, and the sign selects different branches of every bit operation; tests try at most one NaN per operator", "anchors": ["src/bigint/bigint.rs: operator impls, and_not, gcd, mod_inverse, jacobi, mod_sqrt, exp"]}
{"id": "C96", "title": "Float with a machine format's precision computes what the machine computes", "statement": "The documentation of Float says that with precision 53 (24) and the default rounding mode the result is the same as with f64 (f32) arithmetic. For all operands and an exact result in the range of the normal numbers: + - * and / give the value of the IEEE 754 result, and converting the result with f64()/f32() gives its bits.", "quantifier": "all finite Floats of the precision, both machine formats, all four operators", "why_tests_cant": "2^128 operand pairs per operator; halfway cases are measure zero for random tests", "anchors": ["src/bigint/float.rs:48-53", "src/bigint/float.rs: Add, Sub, Mul, Div", "src/bigint/float.rs: f32, f64"]}
{"id": "C97", "title": "The SSE2 back end computes what the portable back end computes", "statement": "For every word-vector primitive (mul_ww, mul_add_www, add_vv, sub_vv, add_vw, sub_vw and their large forms, mul_add_vww, add_mul_vvw): arith_amd64 writes the same words and returns the same outgoing word as arith_generic, so that switching the cfg flag does not change any result.", "quantifier": "all words, all vectors of all lengths", "why_tests_cant": "the flag that selects the back end is never set by build.rs, so no test of the repository runs a line of it; carries run through vectors of any length", "anchors": ["src/bigint/arith_amd64.rs", "src/bigint/arith_generic.rs", "src/bigint/arith.rs", "build.rs"]}
{"id": "C98", "title": "A Nat taken out of a BigInt is a number of its own", "statement": "For a BigInt `x`, `let n = x.as_ref().clone()` is a Nat with the magnitude of `x`. A later `n op= m` leaves `x` alone, a later `x op= y` leaves `n` alone, and `BigInt::from(n)` is a number of its own. FALSE of the code for the first two: `as_ref` lends the magnitude and the clone of a Nat shares its vector, so a write through either handle changes both; `n -= 3` on the magnitude of -3 leaves a negative zero that is not equal to 0. What holds: a number changes only through handles of its own family, a BigInt's sign only through its own handle, and `BigInt::from` copies.", "quantifier": "every program of Nat and BigInt commands (creation, clone, deep clone, operators, compound assignments, sign setters, as_ref, from), every handle", "why_tests_cant": "The unit tests never take the Nat out of a BigInt and write to it; which later write changes which handle depends on the whole history of clones.", "anchors": ["src/bigint/bigint.rs:1064-1068", "src/bigint/bigint.rs:942-949", "src/bigint/nat.rs:49-51"]}
{"id": "C99", "title": "random is uniform", "statement": "`Nat::random` draws every number of [0, n) equally often: over all outcomes of the generator with errors in the same places, as many lead to v as to w for any v, w < n, also among those that leave the same words for later draws; for `BigInt::random` the same with the sign of the bound. And the loop rejects at most half of the groups of words, whatever the bound. `DefaultRand` of the portable build, which xors its state with a new seed value, returns each number for exactly one seed value.", "quantifier": "every bound, every two numbers below it, every pattern of generator errors, streams of every length", "why_tests_cant": "A distribution is a statement about all 2^(32k) inputs; a test sees a few draws.", "anchors": ["src/bigint/nat.rs:819-858", "src/bigint/bigint.rs"]}
{"id": "C100", "title": "The linear congruential generators run through all their values before repeating", "statement": "A LinearCongruentialRand with a prime modulus m, increment 0 and a primitive root as multiplier delivers, from any seed that m does not divide, every number of 1..m-1 exactly once in m-1 draws; with modulus 2^k, odd increment and multiplier 4h+1 every number below 2^k once in 2^k draws. The shipped minstd_rand0! and minstd_rand! (16807 and 48271 modulo 2^31-1) have the period 2^31-2. FALSE of the shipped macros, which are u32: the product wraps; from seed 1 they fall into cycles of 21729 and 31396 numbers, some seeds have cycles of 210 and 629, some give zeros only. TRUE for the same parameters over u64.", "quantifier": "for all seeds, moduli and multipliers in the stated class; all draws", "why_tests_cant": "a test sees a few of 2^31 draws; whether a sequence repeats early is a statement about all of them", "anchors": ["src/rand/linear_congruential_rand.rs:22-40", "src/rand/linear_congruential_rand.rs:58-72"]}
{"id": "C101", "title": "The primality test decides exactly by the published conditions", "statement": "`probably_prime_test(rounds)` returns true exactly when no prime up to 53 divides n, every base it draws is a strong base of n (v^u = 1 or v^(u*2^i) = -1 modulo n, n - 1 = u*2^t), and n passes the extra strong Lucas test with the first parameter P >= 3 whose P^2 - 4 has the Jacobi symbol -1: with n + 1 = s*2^r, U(s) = 0 and V(s) = 2 or -2, or V(s*2^t) = 0 for some t < r - 1. So it lets through the composites those tests let through (10877 with base 1) and no others.", "quantifier": "every n >= 128 of one word, every longer n whose shifts are right; every sequence of bases drawn, every number of rounds", "why_tests_cant": "A test can only show that some primes pass and some composites do not. That the short cuts of the code (stopping at V = 2, storing V - 2 with a high zero word, giving up at a square, the limit 10000 on P) accept no other composite and reject no number that satisfies the conditions is a statement about all n.", "anchors": ["src/bigint/nat.rs:939", "src/bigint/nat.rs:896", "src/bigint/nat.rs:1118"]}
{"id": "C102", "title": "The RANLUX base generators are those of the C++ standard", "statement": "`ranlux24_base!` and `ranlux48_base!` (LaggedFibonacciRand with 24,10,24 and 48,5,12) deliver from a seed v the sequence of std::ranlux24_base(v) and std::ranlux48_base(v): state seeded by the generator 40014*z mod 2147483563, carry 1 exactly if the last word is 0, subtract with carry. TRUE over u64 and usize for every seed with 40014*v < 2^64 that is not a multiple of 2147483563. FALSE over u32 (the products of the seeding wrap: 9529736 instead of 15039276 as the first number from the standard's default seed), for larger seeds over u64, and for the seeds 0 and multiples of 2147483563, which the standard replaces.", "quantifier": "every seed, every number of draws; the u64 theorem for every word size below 64 and every pair of lags", "why_tests_cant": "A test fixes a seed and a position; conformance is an equality of infinite sequences for every seed.", "anchors": ["src/rand/lagged_fibonacci_rand.rs:72", "src/rand/lagged_fibonacci_rand.rs:98", "src/rand/lagged_fibonacci_rand.rs:132"]}
{"id": "C103", "title": "generate_prime returns exactly the first accepted candidate, and any prime of the length can come out", "statement": "`Nat::generate_prime(bits, rounds, rng)` takes groups of ceil(bits/32) words, cuts each to the length, sets the two top bits and the lowest one, moves on in steps of two (fewer than 2^19 of them) to the first number that no odd prime up to 53 divides, and returns the first such number that still has the length and that the primality test accepts, having used exactly those words; words before an error are dropped. Every prime with its two top bits set comes out of some outcome of the generator. REFUTED parts: an error of the generator at the start of a group is a panic instead of an Err; the primes of a length are not equally likely (of 5 bits 29 comes three times as often as 31).", "quantifier": "every length from 2, round count, generator outcome and prime", "why_tests_cant": "over all random streams", "anchors": ["src/bigint/nat.rs: generate_prime (1957-2035)"]}
{"id": "C104", "title": "Debug formatting of Nat, BigInt and Rat is the hexadecimal text, and its '#' form parses back", "statement": "`{:?}` of a Nat or BigInt is its lower-case hexadecimal numeral without leading zeros, with '-' in front for a negative value; `{:#?}` puts 0x in front of the numeral, and parsing that text gives the value back. For a Rat both parts are printed that way with '/' in between, and a NaN prints NaN. REFUTED part: for Rat the flag '#' is ignored, so the text of 16 is 10/1, which parses as ten.", "quantifier": "every canonical Nat, every integer, every rational", "why_tests_cant": "a few sample values cannot tell hexadecimal from decimal digits, and the word-wise printing has padding cases at every length", "anchors": ["src/bigint/nat.rs: Debug (2115)", "src/bigint/bigint.rs: Debug (1060)", "src/bigint/rat.rs: Debug (759)"]}
{"id": "C105", "title": "What the primality test answers is known for every number", "statement": "`probably_prime_test(rounds)` on any n >= 128 ends with the answer true exactly when no prime up to 53 divides n, every base drawn passes the Miller-Rabin round with the exponent that the code's right shift makes of n - 1, and n passes the Lucas test with the index that the shift makes of n + 1. Where the shift is right these are the published conditions (C101). For n = c*2^(32j) + 1 with c < 2^(32j) no base is ever rejected; for n = c*2^(32j) - 1 the Lucas test never rejects.", "quantifier": "every n >= 128, every sequence of bases drawn, every number of rounds", "why_tests_cant": "The numbers concerned have several words and a long run of equal low bits; random testing practically never meets one, and a test cannot say that nothing else is let through.", "anchors": ["src/bigint/nat.rs:896", "src/bigint/nat.rs:939", "src/bigint/nat.rs:1118", "src/bigint/nat.rs:458"]}
{"id": "C106", "title": "Operations do not depend on leading zero words", "statement": "The number of words that a Nat uses should not change any result: `x * w`, `x - w` and `0 << 32` return numbers with leading zero words, and `+`, `*`, `&`, `|`, `^`, `<<`, `and_not`, `/ u32`, `% u32` and the octal text treat them as their value (`*=` where it does not panic, C131). `a op b` with a number on the left drops its leading zero words first, `/` and the decimal text do too. Equality, order, `-=`, `%=`, `!`, `>>=`, `bits_len`, the hex and binary texts and every right operand do not; what each of them returns for m kept in l words is given exactly.", "quantifier": "every Nat with any number of leading zero words, every operand", "why_tests_cant": "A test compares a few results with literals; whether a zero word on top is visible depends on the operation applied next and, for division, on the size of the divisor.", "anchors": ["src/bigint/nat.rs:355", "src/bigint/nat.rs:375", "src/bigint/nat.rs:516", "src/bigint/nat.rs:1186"]}
{"id": "C107", "title": "Euclidean division obeys its identity for every pair", "statement": "For every a and every n other than 0, rem_euclid returns k and div_euclid returns q with a = q n + k and 0 <= k <= |n|; k is |n| only when a is a negative multiple of n, so `k % n` is always the residue of a. A zero divisor panics.", "quantifier": "all integers a and n", "why_tests_cant": "Tests sample a handful of pairs; the identity and the exact set of pairs with k = |n| concern infinitely many pairs of any size.", "anchors": ["src/bigint/bigint.rs:186", "src/bigint/bigint.rs:209"]}
{"id": "C108", "title": "Every bit of every BigInt bit operation", "statement": "For all integers in two's complement: bit i of a & b, a ^ b and !a is the and, xor, complement of the operand bits; bit i of a | b is the or for operands of equal sign and the complement of the and for operands of different sign; bit i of a.and_not(b) is a and not b, with the operands exchanged when both are negative. Nothing panics.", "quantifier": "all pairs of integers, all bit positions", "why_tests_cant": "Two's complement of unbounded numbers has infinitely many bits; tests look at a few small operands.", "anchors": ["src/bigint/bigint.rs:498", "src/bigint/bigint.rs:529", "src/bigint/bigint.rs:571"]}
{"id": "C109", "title": "The congruence solver lists each solution once", "statement": "solve_mod_linear_equation(a, b, n) with n other than 0 returns None exactly when a v = b (mod n) has no solution or b is negative; otherwise a list without repetitions of all solutions in [0, |n|), gcd(a, n) of them.", "quantifier": "all integers a, b, n with n <> 0", "why_tests_cant": "Completeness (no missing solution) and uniqueness quantify over all residues; tests compare single lists.", "anchors": ["src/bigint/bigint.rs:333"]}
{"id": "C110", "title": "Rat comparison is one total order", "statement": "Comparing any two Rats that are not NaN, reduced or not, with any signs of numerator and denominator, orders them by value, a zero carrying a minus sign being placed just below a zero without; this is reflexive, antisymmetric and transitive, so sorting and searching are well defined.", "quantifier": "all pairs and triples of Rats", "why_tests_cant": "Transitivity and totality are statements about all triples; signed zeros only appear after certain operations.", "anchors": ["src/bigint/rat.rs:436", "src/bigint/rat.rs:603"]}
{"id": "C111", "title": "Which rational a float becomes, for every bit pattern", "statement": "Rat::from(f64) of each of the 2^64 patterns: NaN for infinities and NaNs, otherwise the value divided by 4^max(0, e - 1075) with e the exponent field, hence exact for every float below 2^53 in magnitude; Rat::from(f32) likewise.", "quantifier": "all 2^64 and 2^32 bit patterns", "why_tests_cant": "2^64 patterns cannot be enumerated.", "anchors": ["src/bigint/rat.rs:71", "src/bigint/rat.rs:637"]}
{"id": "C112", "title": "What Float addition and subtraction return for every pair", "statement": "For every pair of Floats of any form, precision and rounding mode, + and - terminate without a panic; for finite operands the exact result is rounded once, with the settings of the left operand, except that the right operand's are used when magnitudes are subtracted and the left one is not larger; every combination of zero, finite, infinite and NaN has the stated result.", "quantifier": "all pairs of well formed Floats", "why_tests_cant": "The result depends on six rounding modes, unbounded precisions and the order of magnitudes.", "anchors": ["src/bigint/float.rs:939", "src/bigint/float.rs:974", "src/bigint/float.rs:1027", "src/bigint/float.rs:1063"]}
{"id": "C113", "title": "What to_f64 and to_f32 return for every Float", "statement": "Float::to_f64 and to_f32 never panic; they return the nearest machine float, ties to even, with the accuracy flag true to the comparison with the exact value, except strictly between half the least positive float and that float, where the least normal float comes back (without a sign in to_f64).", "quantifier": "all well formed Floats", "why_tests_cant": "Rounding at the boundaries of the subnormal range depends on mantissas of any length.", "anchors": ["src/bigint/float.rs:698", "src/bigint/float.rs:810"]}
{"id": "C114", "title": "Products of ranges and binomials over the whole machine range", "statement": "mul_range(a, b) is the product of the integers from a to b for every pair of i64 values in a build without overflow checks; with checks it is the same or a panic, exactly for ranges from i64::MIN to below zero. binomial(n, k) is 1 for negative k, the generalised coefficient while n - k' + 1 fits, 0 when it wraps; with checks it panics exactly when n - k' or n - k' + 1 leaves i64.", "quantifier": "all pairs of i64 values", "why_tests_cant": "2^128 pairs; the exceptional ones are at the ends of the range.", "anchors": ["src/bigint/bigint.rs:607", "src/bigint/bigint.rs:628"]}
{"id": "C115", "title": "Modular power for every base, exponent and modulus", "statement": "BigInt::exp(a, b, n) without overflow checks: a^b for n = 0 and b >= 0, the residue of a^b in [0, |n|) for other n and b >= 0, 1 for b < 0 and n = 0, and for b < 0 and other n the residue v with a^|b| v = g^|b| (mod n), g = gcd(a, n), the right side negated for negative a and odd b.", "quantifier": "all triples of integers", "why_tests_cant": "Unbounded operands; the branches depend on word counts and parity of the modulus.", "anchors": ["src/bigint/bigint.rs:644", "src/bigint/nat.rs:1771"]}
{"id": "C116", "title": "Nearest machine float of every Rat", "statement": "Rat::to_f64 of every Rat that is not NaN is the nearest double, ties to even, with the sign of the numerator; to_f32 likewise except that zero panics. The exactness flag is right for zero and for values of at least half the least positive float; below that the result is a zero and the flag says whether the quotient has at most 53 (24) significant bits.", "quantifier": "all Rats", "why_tests_cant": "Numerators and denominators of any size.", "anchors": ["src/bigint/rat.rs:115", "src/bigint/rat.rs:135"]}
{"id": "C117", "title": "What Float multiplication and division return for every pair", "statement": "x * y is the exact product rounded once to the left operand's precision and mode, and the combinations of zero, infinite and NaN follow IEEE 754. x / y of finite operands is, exactly, the integer quotient of the mantissas placed at the exponent difference minus the padding (a value at least 2^29 times too small); all other combinations are given.", "quantifier": "all pairs of well formed Floats", "why_tests_cant": "Mantissas of any length, six modes, any precision.", "anchors": ["src/bigint/float.rs:541", "src/bigint/float.rs:583", "src/bigint/float.rs:1114", "src/bigint/float.rs:1128"]}
{"id": "C118", "title": "Fractions of any two integers", "statement": "Rat::from_frac(n, d) for every pair of isize values: an error for d = 0; without overflow checks the value n/d, except with the opposite sign for n = isize::MIN and d < 0; with checks the same or a panic, exactly for d = isize::MIN or n = isize::MIN and d < 0. from_frac_bigint is n/d in lowest terms for every pair with d <> 0.", "quantifier": "all pairs of isize values, all pairs of BigInts", "why_tests_cant": "The exceptional pairs are at the end of the range; BigInts are unbounded.", "anchors": ["src/bigint/rat.rs:45", "src/bigint/rat.rs:58"]}
{"id": "C119", "title": "The error of a text that is no integer names what is wrong with it", "statement": "When a text does not parse as Nat or BigInt, the error kind and the message tell the reason: the text is empty, it has only signs, the first character is no digit, a leading 0 is not followed by a prefix letter, or a character is no digit. In the last case the message quotes the first such character.", "quantifier": "all texts", "why_tests_cant": "Texts have any length and any characters; a test compares a handful of messages.", "anchors": ["src/bigint/nat.rs:261", "src/bigint/nat.rs:2097", "src/bigint/bigint.rs:951", "src/bigint/nat_err.rs:22"]}
{"id": "C120", "title": "Which error Rat and Float parsing, fractions and inverses return", "statement": "Parsing a Rat fails with DenominatorIsZero exactly for a fraction of two integers with a zero denominator, and otherwise with ParseStringWrong carrying the message of the part that is wrong (the numerator first). Parsing a Float fails with ExponentOverflow or ExponentUnderflow exactly when the exponent is an integer outside the range of exponents, and the message shows that exponent; otherwise with ParseStringWrong. from_frac, from_frac_bigint and inv fail only for zero.", "quantifier": "all texts, all pairs of integers, all Rats", "why_tests_cant": "Texts of any length; the two kinds differ only in combinations of several conditions.", "anchors": ["src/bigint/rat.rs:45", "src/bigint/rat.rs:363", "src/bigint/rat.rs:677", "src/bigint/float_fmt.rs:156"]}
{"id": "C121", "title": "Every error says something true", "statement": "The text of every error value is not empty, names a condition that the call really violated, and source() gives the inner error.", "quantifier": "all error values that a call of the library returns", "why_tests_cant": "Every combination of generator parameters and every text is a different error.", "anchors": ["src/rand/rand_error.rs:45", "src/rand/mersenne_twister_rand.rs:47", "src/rand/linear_congruential_rand.rs:22", "src/rand/lagged_fibonacci_rand.rs:29", "src/bigint/rat_err.rs:47"]}
{"id": "C122", "title": "What formatting shows for every finite Float", "statement": "The decimal text of a finite Float is that of a definite number: the numerator of its lowest-terms value, with as many last digits zeroed as it has zero digits (and replaced by a number made of the wrong words when the mantissa has whole spare words), over the same power of two; it is rounded to the digits asked for, {} rounds a second time, and with overflow checks {} panics exactly for results between 0 and 1/10.", "quantifier": "every finite Float, every format precision, both build modes", "why_tests_cant": "mantissas and digit strings of any length", "anchors": ["src/bigint/decimal.rs: Decimal::new, round, shr_inner", "src/bigint/float_fmt.rs: fmt_inner, fmt_for_exp, fmt_for_display"]}
{"id": "C123", "title": "jacobi with an even second argument", "statement": "For an even b other than 0 the Jacobi symbol is not defined and jacobi does not refuse: with a mod |b| = q*2^s, q odd, it returns the symbol (|b|/q) of the other order, negated when a and b are both negative; a multiple of b gives 0, except a negative multiple of a power of two, which gives 1 (b > 0) or -1 (b < 0).", "quantifier": "every a and even b whose reduction uses shifts Nat does right; every even |b| < 2^32 without condition", "why_tests_cant": "which answer comes out for arguments outside the definition depends on the whole reduction", "anchors": ["src/bigint/bigint.rs: jacobi"]}
{"id": "C124", "title": "What Float::from returns for every integer and every Rat", "statement": "Float::from(BigInt) is the integer, exactly, with max(64, bits) bits of precision, a zero with the sign of the operand for 0 and an infinity from 2^(2^31-1) on. Float::from(Rat) is Float::from(numerator) when the numerator is 0 or the denominator 1, NaN for NaN and for a numerator that became infinite, an infinity for a zero and a zero for an infinite denominator; otherwise it is, rounded once, the integer quotient of numerator and denominator each shifted up to fill its top word, placed at the difference of the exponents minus 32 for each word of precision and 32 more. Nothing panics.", "quantifier": "every BigInt and every Rat, reduced or not, with any signs", "why_tests_cant": "the defect of the quotient depends on lengths and leading zeros of both operands; samples do not show the rule", "anchors": ["src/bigint/float.rs: set_rat, set_nat, set_bigint"]}
{"id": "C125", "title": "Every text is either refused or becomes the Float of the number it stands for as C124 says", "statement": "Float::from_str, for every text: with white space trimmed, a text without '.', 'e' and 'E' is an integer numeral; any other text may have one kind of exponent letter, is split at its first letter when something follows, the exponent must be an integer numeral between the smallest and the largest exponent of a Float (a bare prefix such as 0x counts as 0), the first '.' in front of it is removed, and the text stands for the remaining integer divided by 10^n, n the bytes behind the point minus the exponent, which has to be positive. Exactly the texts of this form are accepted, nothing panics; a bare prefix as integer gives NaN, n = 0 the integer exactly, and n > 0 what C124 says about the fraction in lowest terms.", "quantifier": "every list of characters", "why_tests_cant": "the texts are infinitely many and the accepted language has corners (trailing letter, bare prefixes, non-negative net exponent, multi-byte characters behind the point) that examples do not separate", "anchors": ["src/bigint/float_fmt.rs:156-253", "src/bigint/float.rs: From<Rat>, From<BigInt>"]}
{"id": "C126", "title": "Which numerator and denominator every Rat operation stores", "statement": "For every two Rats that are not NaN, with whatever signs on numerator and denominator and whether or not in lowest terms: + and - and * and / and from_frac store the result in lowest terms with a positive denominator when it is not zero; a zero result is unsigned and keeps the denominator it was computed with (n*n' for + - *, n*n for the product of two zeros of the same sign, the magnitude of the divisor's numerator times n with the divisor's sign for /); / by zero panics; neg, abs, inv, is_integer and signnum are given field by field; with NaN every operator returns NaN.", "quantifier": "all signs, numerators and positive denominators", "why_tests_cant": "numerator() and denominator() show the stored fields; which representation comes out depends on every branch of norm and on the squaring shortcut, over unbounded integers", "anchors": ["src/bigint/rat.rs:323-399", "src/bigint/rat.rs:413-635", "src/bigint/rat.rs:58-69"]}
{"id": "C127", "title": "The Display of a Decimal shows its value", "statement": "Formatting a Decimal (the digits and exponent behind Float formatting) gives a decimal numeral of the value the type documents, 0.d1 d2 ... times 10^exp, zero included, for every digit list and every exponent that fits into memory, with and without overflow checks.", "quantifier": "all digit lists, all exponents, both builds", "why_tests_cant": "the size of the buffer is computed with wrapping arithmetic on the exponent; every sign and size relation between exponent and number of digits takes another branch", "anchors": ["src/bigint/decimal.rs:213-232"]}
{"id": "C128", "title": "Format options act on the numbers as on the primitive types", "statement": "Width, fill, alignment, '+', '#', '0' in a format string give for Nat and BigInt the text a primitive integer of that value gets (sign, prefix, digits, filled to the width), for Rat and Float a text at least as wide as asked, and the precision in {:.p} of a Float the number of digits behind the point; error messages are cut and filled as strings are.", "quantifier": "every number, every set of options, every radix", "why_tests_cant": "options combine freely; every width and number", "anchors": ["src/bigint/nat_macro.rs: nat_fmt", "src/bigint/nat.rs: Octal, Display", "src/bigint/bigint_macro.rs: bigint_fmt_impl", "src/bigint/rat.rs: impl_rat_fmt_inner", "src/bigint/float_fmt.rs: fmt", "src/bigint/nat_err.rs: Display"]}
{"id": "C129", "title": "A Rat whose denominator was overwritten with zero counts as its numerator", "statement": "Writing through a clone of the denominator can leave a Rat a/0 (C84). Such a Rat behaves as a/1: in + - * /, in comparisons, in inv, is_integer and in its text.", "quantifier": "every Rat with any denominator, every operator", "why_tests_cant": "needs every combination of damaged and sound operands", "anchors": ["src/bigint/rat.rs: mul_denom, scale_denom, cmp_inner, add_inner, sub_inner, mul_inner, div_inner, inv, is_integer"]}
{"id": "C130", "title": "A Float that lost its mantissa does not pass for a number", "statement": "After set_mant_exp emptied the mantissa of a finite Float (C60, C82), every sum, difference, product and quotient computed with that Float is NaN, and so is its comparison with itself. In no case is the result a finite Float marked Exact.", "quantifier": "all pairs of finite Floats of which at least one has no mantissa, every precision, mode and exponent", "why_tests_cant": "The tests never compute with a Float after set_mant_exp on a shared value; the state is invisible in the form and the accuracy, and spreads through any number of further operations.", "anchors": ["src/bigint/float.rs:484-604", "src/bigint/float.rs:1223-1240"]}
{"id": "C131", "title": "Multiplying in place leaves the product", "statement": "`x *= y` leaves the product of the two numbers in x for every x and y, whatever operations made them, as `x * y` does; it does not panic.", "quantifier": "every pair of Nats, with any number of leading zero words", "why_tests_cant": "x needs leading zero words (four `*= u32` on a small number, or a random number), and then the size of both decides", "anchors": ["src/bigint/nat_avx2.rs:12-90", "src/bigint/nat.rs:620-638", "src/bigint/bigint.rs:456-463"]}
{"id": "C132", "title": "BigInt operations do not depend on leading zero words", "statement": "The number of words that keeps the magnitude of a BigInt should not change any result. `!` of -2^(32k), `random` and writes through a clone of the magnitude return numbers with leading zero words. `*`, `<<`, `!`, `&`, `^`, `|` of equal signs, `/` by a number without leading zero words, the decimal text and the bits treat them as their value, and so does every `x op y` for x. Equality, order, sums and differences in which the magnitudes are subtracted, `%=` and `>>=` do not; what each of them returns for m kept in l words is given exactly.", "quantifier": "every BigInt with any number of leading zero words, every operand", "why_tests_cant": "A test compares a few results with literals; leading zero words come from other operations and show up only in the next one", "anchors": ["src/bigint/bigint.rs:375-602", "src/bigint/bigint.rs:991-1040", "src/bigint/bigint_macro.rs:58-84"]}
{"id": "C133", "title": "Float::from of an integer has the value of the integer, however many words the integer is kept in", "statement": "For every Nat or BigInt x of value m, also one kept with leading zero words as x * w, x - w, 0 << 32 and !x leave it, Float::from(x) has the value m. (False of the code: bits_len counts the zero top word as empty, fnorm then shifts by 32 bits, which shl_vu_inner takes for a shift by 0 in both directions, so every word is or-ed with the one below it. The value is (m | m*2^32) / 2^32 for two words and the same rounded to an integer for more; the mantissa is not normalised, so the result compares and converts as a larger number: f64::from(Float::from(0 << 32)) is 2^31.)", "quantifier": "all integers, all numbers of words, both signs", "why_tests_cant": "Tests convert numbers made by From, which never have leading zero words; the value follows a formula over all word patterns.", "anchors": ["src/bigint/float.rs:371-383", "src/bigint/float.rs:401-495", "src/bigint/float.rs:497-520", "src/bigint/nat.rs:210-220", "src/bigint/arith_generic.rs:154-168"]}
{"id": "C134", "title": "Rats made of integers do not depend on leading zero words", "statement": "Rat::from of a BigInt or Nat and from_frac_bigint give the same Rat for an integer however many words it is kept in: leading zero words are dropped, the value is right and the Rat is in lowest terms. A zero denominator is reported as an error. (False of the code: the test for a zero denominator looks at the words; `Rat::from_frac_bigint(&5, &(BigInt::from(0u32) << 32))` is 5 instead of an error, since the denominator becomes 1.)", "quantifier": "all numerators and denominators, any number of leading zero words", "why_tests_cant": "Tests use literals, which never have leading zero words", "anchors": ["src/bigint/rat.rs:58-69", "src/bigint/rat.rs:323-348", "src/bigint/rat.rs:668-675", "src/bigint/bigint.rs:82-87", "src/bigint/bigint.rs:136-148"]}
{"id": "C135", "title": "Bytes, trailing zeros, squares, roots and gcd do not depend on leading zero words", "statement": "For every Nat or BigInt with leading zero words: the bytes have the value of the number and give it back, trailling_zeros and sqr are those of the value, sqrt is the root of the value, gcd returns the greatest common divisor with Bezout coefficients and mod_inverse the inverse of the value. (False of the code for sqrt of a zero kept in several words, which panics with a division by zero.)", "quantifier": "all numbers, any number of leading zero words", "why_tests_cant": "Tests use numbers without leading zero words; those come from other operations", "anchors": ["src/bigint/nat.rs:151-208", "src/bigint/nat.rs:860-871", "src/bigint/nat.rs:1158-1178", "src/bigint/nat.rs:1505-1510", "src/bigint/bigint.rs:247-293", "src/bigint/bigint.rs:303-328"]}
{"id": "C136", "title": "Powers do not depend on leading zero words", "statement": "For every base, exponent and modulus, however many words they are kept in, pow is the power and pow_mod the power modulo n. (False of the code: 0 to the power of a zero kept in several words is 0 instead of 1, and a modulus with leading zero words reduces nothing that has fewer words than it: 2^4 modulo 3 * 5u32 is 16.)", "quantifier": "all bases, exponents and moduli, any number of leading zero words", "why_tests_cant": "Tests use literals; leading zero words come from other operations", "anchors": ["src/bigint/nat.rs:744-782", "src/bigint/nat.rs:787-816"]}
{"id": "C137", "title": "Jacobi symbols and linear congruences do not depend on leading zero words", "statement": "jacobi(a, b) and solve_mod_linear_equation(a, b, n) depend on the numbers only, not on the number of words they are kept in; jacobi returns None for b = 0. (False of the code: for a zero b kept in several words jacobi panics, or is Some(0) for a = 0, and a modulus n with leading zero words gives solutions that are not reduced: x = 20 modulo 3 * 5u32 gives 20.)", "quantifier": "all numbers, both signs, any number of leading zero words", "why_tests_cant": "Tests use literals; leading zero words come from other operations", "anchors": ["src/bigint/bigint.rs:333-373", "src/bigint/bigint.rs:718-769"]}
{"id": "C138", "title": "The primality test does not depend on leading zero words", "statement": "probably_prime_test gives the same answer for a number however many words it is kept in; multiples of a prime up to 53 are never taken for primes. (False of the code: the table of small primes is used for one word only, so every prime up to 53 with leading zero words is found composite by the trial division: (7 * 1u32) is not a prime.)", "quantifier": "all multiples of the primes up to 53, any number of leading zero words, every number of rounds and every generator", "why_tests_cant": "Tests use literals; leading zero words come from other operations", "anchors": ["src/bigint/nat.rs:1118-1155"]}
{"id": "C139", "title": "Random numbers below a bound with leading zero words", "statement": "random(n) is a number below n, whatever number of words n is kept in: for n with leading zero words it is the first group of as many whole words as n has that is below n (so about one group in 2^(32l)/n is taken), and for n = 0 it is NaN. (False of the code for a zero kept in several words: the loop asks every generator for words forever.)", "quantifier": "all bounds, any number of leading zero words, every sequence of generator outcomes", "why_tests_cant": "A test cannot show that a loop ends for no generator; literals have no leading zero words", "anchors": ["src/bigint/nat.rs:819-857"]}
{"id": "C140", "title": "Powers and square roots modulo a number ignore leading zero words", "statement": "exp of a base with leading zero words gives the result for the number itself, for Nat and BigInt; mod_sqrt(p) of such a number gives the square root it gives for the number itself.", "quantifier": "every base of any number of words, every exponent and modulus without leading zero words, debug and release builds", "why_tests_cant": "the base is a product or complement that kept a zero top word; every length and both paths of the exponentiation have to be tried", "anchors": ["src/bigint/nat.rs: exp", "src/bigint/bigint.rs: exp, mod_sqrt, mod_sqrt_3mod4, mod_sqrt_tonelli_shanks"]}
