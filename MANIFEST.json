{
 "claims": [
  {
   "property": "C01",
   "status": "proved",
   "theorems": [
    "C01_nat_add_exact"
   ],
   "note": "All canonical inputs, any length."
  },
  {
   "property": "C02",
   "status": "proved",
   "theorems": [
    "C02_nat_sub_abs_diff",
    "C02_sub_with_sign",
    "C02_nan"
   ],
   "note": "All canonical inputs, any length; flag is a >= b as documented."
  },
  {
   "property": "C03",
   "status": "proved",
   "theorems": [
    "C03_nat_mul_exact",
    "C03_nat_mul_exact_shift"
   ],
   "note": "C03_nat_mul_exact is about the literal u64 code below 2^32 words (the stated quantifier); C03_nat_mul_exact_shift is the unbounded variant with an exact c << 32 that the upper layers use."
  },
  {
   "property": "C04",
   "status": "proved",
   "theorems": [
    "C04_nat_div_rem",
    "C04_nat_div_rem_zero"
   ],
   "note": "Includes termination (fuel bound proved sufficient) and the panic on zero."
  },
  {
   "property": "C05",
   "status": "proved",
   "theorems": [
    "C05_u32_operand_ops"
   ],
   "note": "Values for all five operators; canonicity of x*w and x-w is the subject of C06."
  },
  {
   "property": "C06",
   "status": "partial",
   "theorems": [
    "C06_mul_u32_not_canonical_refuted",
    "C06_sub_u32_not_canonical_refuted",
    "C06_shl_zero_not_canonical_refuted",
    "C06_canonical_partial",
    "C06_random_refuted"
   ],
   "note": "False for x * u32, x - u32, 0 << 32 and random (witnesses); the partial theorem covers every other core operation."
  },
  {
   "property": "C07",
   "status": "proved",
   "theorems": [
    "C07_nat_shl",
    "C07_nat_shl_canonical"
   ],
   "note": "Value for every canonical Nat and shift; canonical for non-zero values (0 << 32 see C06)."
  },
  {
   "property": "C08",
   "status": "partial",
   "theorems": [
    "C08_shr_word_multiple_refuted",
    "C08_shr_stale_word_refuted",
    "C08_shr_word_multiple_value",
    "C08_nat_shr_partial",
    "C08_shr_value",
    "C08_shr_right"
   ],
   "note": "False in two ways (whole-word shifts, stale top word). The exact value of every right shift is proved for all inputs (C08_shr_value, spec in SpecShift.v), and the exact condition under which it is the right one (C08_shr_right, an iff); the partial theorem gives the region in words of the caller."
  },
  {
   "property": "C09",
   "status": "proved",
   "theorems": [
    "C09_nat_bit_ops",
    "C09_nat_bit_ops_canonical",
    "C09_nat_not"
   ],
   "note": "Bit by bit and as integers, with canonicity."
  },
  {
   "property": "C10",
   "status": "proved",
   "theorems": [
    "C10_nat_compare",
    "C10_nat_compare_nan"
   ],
   "note": "All Nats."
  },
  {
   "property": "C11",
   "status": "proved",
   "theorems": [
    "C11_nan_absorbing"
   ],
   "note": "All operators; the NaN check precedes the zero-divisor panic."
  },
  {
   "property": "C12",
   "status": "proved",
   "theorems": [
    "C12_bytes_roundtrip",
    "C12_bytes_decode",
    "C12_bytes_encode_minimal",
    "C12_bytes_nan",
    "C12_from_machine_words",
    "C12_from_words"
   ],
   "note": "All byte strings and canonical Nats; also From<u32/u64/u128>."
  },
  {
   "property": "C13",
   "status": "proved",
   "theorems": [
    "C13_format_hex",
    "C13_format_binary",
    "C13_format_octal",
    "C13_format_decimal"
   ],
   "note": "All canonical Nats, all five renderings, both alternate settings; formatter width/fill flags not modelled."
  },
  {
   "property": "C14",
   "status": "partial",
   "theorems": [
    "C14_leading_zero_refuted",
    "C14_bare_prefix_refuted",
    "C14_parse_value_partial",
    "C14_parse_rejects_partial",
    "C14_white_space"
   ],
   "note": "False for superfluous leading zeros (\"007\" is Err) and for a bare prefix (\"0x\" is Ok(NaN)); the two partial theorems are an exact description of what is accepted and with which value. Absence of panics is by the model's type."
  },
  {
   "property": "C15",
   "status": "proved",
   "theorems": [
    "C15_parse_display",
    "C15_parse_prefixed"
   ],
   "note": "All canonical Nats, all four prefixed forms and decimal."
  },
  {
   "property": "C16",
   "status": "proved",
   "theorems": [
    "C16_nat_pow",
    "C16_nat_pow_nan"
   ],
   "note": "All canonical Nats, any exponent; NaN operand or exponent gives NaN."
  },
  {
   "property": "C17",
   "status": "proved",
   "theorems": [
    "C17_nat_pow_mod",
    "C17_nat_pow_mod_zero",
    "C17_nan"
   ],
   "note": "All canonical Nats with non-zero modulus; a zero modulus means no reduction, stated separately."
  },
  {
   "property": "C18",
   "status": "proved",
   "theorems": [
    "C18_nat_exp",
    "C18_nat_exp_no_modulus",
    "C18_nat_exp_nan",
    "C18_exp_montgomery",
    "C18_exp_windowed",
    "C18_montgomery_step"
   ],
   "note": "All canonical operands, overflow checks off (release profile); each of the three algorithms is also proved on its own. Builds with overflow checks: C68."
  },
  {
   "property": "C19",
   "status": "proved",
   "theorems": [
    "C19_nat_sqrt_floor"
   ],
   "note": "Floor square root of every canonical Nat, including termination."
  },
  {
   "property": "C20",
   "status": "proved",
   "theorems": [
    "C20_mul_karatsuba",
    "C20_mul_karatsuba_nan",
    "C20_karatsuba_buffer"
   ],
   "note": "All lengths; every access to the raw-pointer buffer is a checked access in the model, so = Ok includes memory safety."
  },
  {
   "property": "C21",
   "status": "proved",
   "theorems": [
    "C21_nat_sqr",
    "C21_nat_sqr_nan"
   ],
   "note": "All lengths, all three algorithms."
  },
  {
   "property": "C22",
   "status": "proved",
   "theorems": [
    "C22_clones_agree",
    "C22_isolation",
    "C22_deep_clone_isolates",
    "C22_by_value_pure",
    "C22_refines_clone_families"
   ],
   "note": "Sequential heap model of the shared Rc<Vec>; every history of operations. Clones stay equal, deep clones are isolated, by-value operators do not touch their operands."
  },
  {
   "property": "C23",
   "status": "proved",
   "theorems": [
    "C23_random",
    "C23_range",
    "C23_every_value",
    "C23_nan",
    "C23_uniform"
   ],
   "note": "Proved; the result can keep high zero words (C06_random_refuted)."
  },
  {
   "property": "C24",
   "status": "proved",
   "theorems": [
    "C24_small",
    "C24_divisible",
    "C24_even",
    "C24_nan"
   ],
   "note": "All Nats below 128, all even numbers, all proper multiples of the table primes; NaN is not prime. The rest of the test is C25, C78, C81, C101."
  },
  {
   "property": "C25",
   "status": "partial",
   "theorems": [
    "C25_prime_partial",
    "C25_prime_word",
    "C25_prime_small",
    "C25_zero_rejects",
    "C25_never_rejects_refuted",
    "C25_shift_refuted"
   ],
   "note": "False in two ways: a base drawn as 0 rejects every prime >= 128 (131 with the stream [0]); and the 3-word prime 2^32*3^11*24251+1 is rejected with the non-zero base 2 because n-1 is shifted wrongly (C25_shift_refuted, primality by Pocklington's criterion). Proved when no base is 0, for all primes below 10^8, and above that when the two shifts avoid the shr bug (shift_ok), n is not a multi-word 2^e+1 and a non-square up to 10002 exists."
  },
  {
   "property": "C26",
   "status": "proved",
   "theorems": [
    "C26_generated",
    "C26_short"
   ],
   "note": "Proved for the Ok and Err results; an error of the generator on the first word panics."
  },
  {
   "property": "C27",
   "status": "proved",
   "theorems": [
    "C27_bits_len",
    "C27_is_set_bit",
    "C27_trailling_zeros",
    "C27_trailling_zeros_zero"
   ],
   "note": "All canonical inputs."
  },
  {
   "property": "C28",
   "status": "partial",
   "theorems": [
    "C28_backends_differ_refuted",
    "C28_backends_agree_partial",
    "C28_generic_exact"
   ],
   "note": "False only for Nat - u32: the x86 version leaves leading zero words (witness). Everything else agrees word for word; the portable versions are exact."
  },
  {
   "property": "C29",
   "status": "proved",
   "theorems": [
    "C29_add_vv",
    "C29_sub_vv",
    "C29_add_vw",
    "C29_sub_vw",
    "C29_mul_add_vww",
    "C29_add_mul_vvw",
    "C29_shl_vu_inner",
    "C29_shr_vu",
    "C29_mul_add_www",
    "C29_div_ww"
   ],
   "note": "All primitives the crate calls, any length; shift counts below 32 (what the callers pass)."
  },
  {
   "property": "C30",
   "status": "proved",
   "theorems": [
    "C30_ring_operations",
    "C30_nan"
   ],
   "note": "All canonical BigInts; NaN separately. Operands with leading zero words: C98, C106."
  },
  {
   "property": "C31",
   "status": "proved",
   "theorems": [
    "C31_div_rem_values",
    "C31_division_law",
    "C31_division_by_zero"
   ],
   "note": "Values only; the sign flag of a zero result is the subject of C32."
  },
  {
   "property": "C32",
   "status": "partial",
   "theorems": [
    "C32_negative_zero_refuted",
    "C32_negative_zero_quotient_refuted",
    "C32_canonical_results_partial",
    "C32_quotient_partial",
    "C32_parse_partial"
   ],
   "note": "False: -4 % 2 and 1 / -2 are negative zeros (witnesses proved). The partial theorems list the operations that keep zero non-negative and the exact condition for / and %."
  },
  {
   "property": "C33",
   "status": "partial",
   "theorems": [
    "C33_rem_euclid_refuted",
    "C33_div_euclid_refuted",
    "C33_euclid_partial",
    "C33_multiples"
   ],
   "note": "False for negative multiples of n (rem_euclid(-4,2) = 2, div_euclid(-4,2) = -3). Proved for every other operand pair. C33_multiples gives the wrong quotient and remainder exactly, so every case is described."
  },
  {
   "property": "C34",
   "status": "partial",
   "theorems": [
    "C34_or_refuted",
    "C34_and_not_refuted",
    "C34_not_refuted",
    "C34_and_xor_partial",
    "C34_or_partial",
    "C34_and_not_partial",
    "C34_not_partial",
    "C34_wrong_branches_partial"
   ],
   "note": "False: 4 | -1 = -5, and_not swaps operands when both are negative, !(-2^32) is not canonical. Proved: & and ^ on all integers, the value of ! on all integers, | for equal signs, and_not unless both are negative; the wrong branches are described exactly."
  },
  {
   "property": "C35",
   "status": "partial",
   "theorems": [
    "C35_shr_refuted",
    "C35_shr_negative_refuted",
    "C35_shl_refuted",
    "C35_shl_partial",
    "C35_shr_partial",
    "C35_shr_small_partial",
    "C35_shr_value",
    "C35_shr_right"
   ],
   "note": ">> inherits the word loop of C08 (witnesses); 0 << 32 is not canonical. Proved: << on all values; the exact value of every >> (C35_shr_value) and exactly when it is the right one (C35_shr_right, an iff)."
  },
  {
   "property": "C36",
   "status": "proved",
   "theorems": [
    "C36_compare",
    "C36_compare_nan",
    "C36_is_natural",
    "C36_set_sign"
   ],
   "note": "All canonical BigInts, NaN included."
  },
  {
   "property": "C37",
   "status": "proved",
   "theorems": [
    "C37_gcd_bezout",
    "C37_gcd_nan"
   ],
   "note": "All pairs of canonical BigInts, zero and negative included; NaN separately."
  },
  {
   "property": "C38",
   "status": "partial",
   "theorems": [
    "C38_not_coprime_refuted",
    "C38_inverse_partial",
    "C38_gcd_partial"
   ],
   "note": "False for the NaN part: 2.mod_inverse(4) = 1. Proved: in [0,|n|) and a correct inverse whenever coprime; in general a*r = gcd(a,n) mod |n|."
  },
  {
   "property": "C39",
   "status": "partial",
   "theorems": [
    "C39_negative_refuted",
    "C39_solutions_partial",
    "C39_negative_partial"
   ],
   "note": "False for every negative b (always None). Proved: exact solution list without duplicates for b >= 0."
  },
  {
   "property": "C40",
   "status": "partial",
   "theorems": [
    "C40_mul_range_refuted",
    "C40_binomial_refuted",
    "C40_mul_range_partial",
    "C40_binomial_partial",
    "C40_binomial_general_partial",
    "C40_mul_range_panics",
    "C40_binomial_panics",
    "C40_binomial_values",
    "C40_binomial_corner"
   ],
   "note": "False at the i64 edges: mul_range(i64::MIN, -1) panics in a debug build, binomial(i64::MAX, 0) = 0 in release. Proved elsewhere, including generalised binomials for negative n. Properties_Exact.v says exactly when each function panics and what the release build returns in every other case (binomial(-1, i64::MIN) is (2^63)!, C40_binomial_corner)."
  },
  {
   "property": "C41",
   "status": "partial",
   "theorems": [
    "C41_negative_exponent_refuted",
    "C41_not_coprime_refuted",
    "C41_exp_partial",
    "C41_exp_inverse_partial",
    "C41_exp_zero_modulus_partial",
    "C41_exp_negative"
   ],
   "note": "False for negative odd exponents of negative bases ((-2)^(-1) mod 5 gives 3) and for non-coprime bases. Proved for all b >= 0 and, for b < 0, coprime bases that are non-negative or have an even exponent. Release build; debug overflow is C68. C41_exp_negative describes the result for every base, every negative exponent and every modulus other than 0."
  },
  {
   "property": "C42",
   "status": "partial",
   "theorems": [
    "C42_multiplicative",
    "C42_periodic",
    "C42_laws_word",
    "C42_jacobi_partial",
    "C42_jacobi_word",
    "C42_symbol_exists",
    "C42_none",
    "C42_jacobi_refuted"
   ],
   "note": "Proved for every a and odd b of one word, and for larger odd b when every shift by the trailing zeros is one Nat::shr_inner does right. False in general: jacobi(2^32, 2^32+1) panics (refuted theorem). C42_multiplicative, C42_periodic and C42_laws_word give the laws of the symbol (product, period, zero exactly for a common factor)."
  },
  {
   "property": "C43",
   "status": "partial",
   "theorems": [
    "C43_mod_sqrt_partial",
    "C43_mod_sqrt_word",
    "C43_mod_sqrt_refuted",
    "C43_debug_refuted"
   ],
   "note": "Proved for every a and odd prime p below 2^32 in a release build, and for larger primes under hypotheses on the shifts (C08 bug) and a word-sized non-residue when p = 1 mod 8 (always true below 2^63). Refuted in general: panics for a = 2^32, p = 2^32+15; with overflow checks panics for a = 1, p = 2^34+79."
  },
  {
   "property": "C44",
   "status": "proved",
   "theorems": [
    "C44_sqrt",
    "C44_sqrt_negative",
    "C44_sqrt_is_not_the_ceiling"
   ],
   "note": "The code computes the floor (the documentation says ceiling; a witness is proved)."
  },
  {
   "property": "C45",
   "status": "proved",
   "theorems": [
    "C45_from_machine_integers",
    "C45_display",
    "C45_parse_prefixed",
    "C45_parse_value",
    "C45_parse_rejects",
    "C45_bytes",
    "C45_bytes_decode"
   ],
   "note": "All values of every machine integer type, all texts, all byte strings."
  },
  {
   "property": "C46",
   "status": "proved",
   "theorems": [
    "C46_is_set_bit",
    "C46_is_set_bit_length",
    "C46_nat_set_bits",
    "C46_set_bits",
    "C46_bits_len"
   ],
   "note": "All canonical BigInts, all indices."
  },
  {
   "property": "C47",
   "status": "partial",
   "theorems": [
    "C47_zero_keeps_denominator_refuted",
    "C47_negative_denominator_refuted",
    "C47_parse_refuted",
    "C47_operators_partial",
    "C47_unary_partial",
    "C47_from_frac_partial",
    "C47_from_f64_partial"
   ],
   "note": "Refuted as stated: 1/2 - 1/2 is 0/4, 0 / -6 has denominator -6, and from_str does not reduce and can make a negative zero. Proved: every non-zero operator or constructor result is in lowest terms with positive denominator, zero results carry no sign; from_f64 always in lowest terms."
  },
  {
   "property": "C48",
   "status": "proved",
   "theorems": [
    "C48_add",
    "C48_sub",
    "C48_mul",
    "C48_div",
    "C48_div_by_zero",
    "C48_assign",
    "C48_neg",
    "C48_abs",
    "C48_inv"
   ],
   "note": "All Rats with canonical parts, reduced or not; division by zero panics."
  },
  {
   "property": "C49",
   "status": "partial",
   "theorems": [
    "C49_negative_zero_refuted",
    "C49_compare_partial",
    "C49_nan"
   ],
   "note": "Refuted for the negative zero that parsing '0/-5' makes. Proved for all operands without a signed zero, reduced or not; NaN is unordered."
  },
  {
   "property": "C50",
   "status": "partial",
   "theorems": [
    "C50_from_f64_refuted",
    "C50_from_f64_wrong",
    "C50_from_f64_partial",
    "C50_range_partial",
    "C50_not_finite",
    "C50_from_f32"
   ],
   "note": "Refuted: every float of magnitude 2^53 or more is converted wrongly (divided by a power of four). Proved exact for all smaller floats, including subnormals; infinities and NaN give NaN."
  },
  {
   "property": "C51",
   "status": "partial",
   "theorems": [
    "C51_tiny",
    "C51_exact_flag_refuted",
    "C51_to_f32_zero_refuted",
    "C51_to_f64_partial",
    "C51_to_f32_partial",
    "C51_nearest_unique",
    "C51_nan"
   ],
   "note": "Refuted: the exact flag is true for 1/2^1080 -> 0, and to_f32(0) panics. Proved: to_f64 is the nearest float (ties to even) for every Rat, to_f32 for every non-zero Rat; the flag is right for values not below half the least float. C51_tiny: below half the least float the flag says whether the value has at most 53 (24) significant bits."
  },
  {
   "property": "C52",
   "status": "proved",
   "theorems": [
    "C52_fraction",
    "C52_integer",
    "C52_sound",
    "C52_decimal",
    "C52_empty"
   ],
   "note": "f64::from_str of the standard library is a parameter; everything else about the text is proved."
  },
  {
   "property": "C53",
   "status": "proved",
   "theorems": [
    "C53_round",
    "C53_set_precision",
    "C53_set_precision_zero",
    "C53_set_precision_special",
    "C53_round_sticky",
    "C53_round_sticky_fits"
   ],
   "note": "Proved for round with a clear sticky argument, which is how every caller except division uses it, and for set_precision."
  },
  {
   "property": "C54",
   "status": "partial",
   "theorems": [
    "C54_mul",
    "C54_mul_special",
    "C54_add_partial",
    "C54_sub_partial",
    "C54_add_other_settings_partial",
    "C54_add_refuted",
    "C54_sub_refuted",
    "C54_add_special_partial",
    "C54_add_zeros_refuted",
    "C54_sub_from_zero_refuted",
    "C54_sub_inf_refuted",
    "C54_sub_special_partial",
    "C54_nan",
    "C54_assign",
    "C54_nan_settings"
   ],
   "note": "Proved for products. Sums and differences: proved when both operands have the same mode and precision, or the left magnitude is larger, or signs agree; otherwise the right operand's settings are used (_refuted). -0 + +0 is -0, 0 - y is y and x - inf is +inf (_refuted)."
  },
  {
   "property": "C55",
   "status": "partial",
   "theorems": [
    "C55_div_refuted",
    "C55_third_refuted",
    "C55_special_partial",
    "C55_inf_refuted",
    "C55_returned_value",
    "C55_returned_zero"
   ],
   "note": "False for every finite quotient: a finite result is always at least 2^29 times too small; inf / y is NaN (_refuted). The other special cases are proved. What comes back instead is proved exactly: the integer quotient of the mantissas, times a power of two, with the remainder normally forgotten and the result marked Exact; zero when the mantissa of the divisor is the larger."
  },
  {
   "property": "C56",
   "status": "partial",
   "theorems": [
    "C56_from_u64",
    "C56_from_i64_partial",
    "C56_from_i64_min_refuted",
    "C56_from_nat",
    "C56_from_bigint",
    "C56_truncate_to_u64",
    "C56_truncate_to_i64",
    "C56_truncate_special",
    "C56_roundtrip"
   ],
   "note": "From<i64> panics on i64::MIN with overflow checks (_refuted); everything else proved. From<Nat>/From<BigInt> for numbers up to max_exp bits (above, the result is an infinity)."
  },
  {
   "property": "C57",
   "status": "proved",
   "theorems": [
    "C57_compare",
    "C57_equal"
   ],
   "note": "All Floats satisfying the invariant of the constructors and operators (ok_float)."
  },
  {
   "property": "C58",
   "status": "partial",
   "theorems": [
    "C58_to_f64_partial",
    "C58_to_f32_partial",
    "C58_tiny_f64_refuted",
    "C58_tiny_f32_refuted",
    "C58_special",
    "C58_roundtrip"
   ],
   "note": "Proved outside the interval between half the least positive float and that float; inside it the code returns the least normal number, for f64 always positive (_refuted)."
  },
  {
   "property": "C59",
   "status": "partial",
   "theorems": [
    "C59_parse_point_exp_partial",
    "C59_parse_point_exp_refuted",
    "C59_parse_trailing_e",
    "C59_parse_hex_point",
    "C59_exp_partial",
    "C59_display_partial",
    "C59_display_integer_partial",
    "C59_special",
    "C59_inner_zero_refuted",
    "C59_word_refuted",
    "C59_two_roundings_refuted",
    "C59_small_refuted",
    "C59_parse_integer",
    "C59_parse_point_partial",
    "C59_parse_point_refuted",
    "C59_parse_zero_refuted",
    "C59_parse_exp_partial",
    "C59_parse_exp_refuted",
    "C59_blank_refuted"
   ],
   "note": "False for any Float whose lowest-terms numerator has an inner zero digit (101 prints 100.0\u2026), for values such as 2^32-1 (prints 0.0\u2026, {:e} panics), for {} at low precision (rounds twice: 128 at 1 bit prints 130.0) and for {} below 1/10 with overflow checks (panic). Proved for the printable Floats: {:e} is the value correctly rounded half-even to the requested digits; {} is that rounding followed by the one to prec places. Parsing: integers are exact; a literal with point or negative exponent is exact when its value is an integer and otherwise too small by more than 2^29; a non-negative exponent and a leading '0.' are always refused. C59_parse_point_exp_*: texts with point and exponent; C59_parse_trailing_e, C59_parse_hex_point: texts that end with 'e'. C122 describes what is shown for every finite Float, the wrong ones included."
  },
  {
   "property": "C60",
   "status": "partial",
   "theorems": [
    "C60_min_precision",
    "C60_is_integer",
    "C60_is_integer_special",
    "C60_mant_exp",
    "C60_set_mant_exp",
    "C60_roundtrip",
    "C60_set_mant_exp_shared_refuted",
    "C60_min_precision_special",
    "C60_defaults",
    "C60_mant_exp_special"
   ],
   "note": "Proved for values; set_mant_exp on a clone of its argument empties the mantissa (_refuted)."
  },
  {
   "property": "C61",
   "status": "partial",
   "theorems": [
    "C61_minstd_wraps_refuted",
    "C61_wrapping_recurrence_partial",
    "C61_exact_recurrence_partial",
    "C61_minstd_partial",
    "C61_reset",
    "C61_errors"
   ],
   "note": "False for u32 parameter sets whose product overflows, e.g. the shipped minstd_rand0 (third output from seed 1). Proved: the wrapping recurrence and the range for every parameter set, the exact recurrence when the sum cannot overflow, reset and error cases."
  },
  {
   "property": "C62",
   "status": "proved",
   "theorems": [
    "C62_sequence",
    "C62_sequence_unique",
    "C62_range",
    "C62_reset",
    "C62_reset_error"
   ],
   "note": "Outputs are given by the published seeding and recurrence (unique solution) with the tempering of the code, for every accepted parameter set; range; reset from any history."
  },
  {
   "property": "C63",
   "status": "partial",
   "theorems": [
    "C63_mt19937_refuted",
    "C63_mt19937_64_refuted",
    "C63_state_words_partial",
    "C63_constants_partial"
   ],
   "note": "False: the two middle tempering shifts go right instead of left. Proved: every state word (before tempering) is that of MT19937 / MT19937-64 for every seed and step."
  },
  {
   "property": "C64",
   "status": "partial",
   "theorems": [
    "C64_full_width",
    "C64_full_width_refuted",
    "C64_subtract_with_carry_partial",
    "C64_reset",
    "C64_parameters"
   ],
   "note": "False when the word size equals the width of the type (the borrow test overflows). Proved for all smaller word sizes, including how the initial words are made. C64_full_width gives the recurrence that full-width words follow (the borrow is lost when word + borrow = 2^B) and the panics with overflow checks."
  },
  {
   "property": "C65",
   "status": "proved",
   "theorems": [
    "C65_nothing_skipped",
    "C65_next"
   ],
   "note": "Any generator, any history of errors and calls to clear_error."
  },
  {
   "property": "C66",
   "status": "proved",
   "theorems": [
    "C66_fresh_bytes",
    "C66_success",
    "C66_crypto_word"
   ],
   "note": "Any sequence of requests, any behaviour of the operating system."
  },
  {
   "property": "C67",
   "status": "partial",
   "theorems": [
    "C67_shl_vu_refuted",
    "C67_shl_vu_words_partial",
    "C67_div_wvw_refuted",
    "C67_div_wvw_big_endian_partial"
   ],
   "note": "False: shl_vu returns the top word shifted by s instead of 32-s, div_wvw walks from the low word. The partial theorems say what they do compute. Neither function has a caller."
  },
  {
   "property": "C68",
   "status": "partial",
   "theorems": [
    "C68_int_exp_checked",
    "C68_exp_checked_refuted",
    "C68_exp_checked_partial",
    "C68_exp_checked_iff"
   ],
   "note": "False: 1.exp(2^32, 5) panics (shift by 32). C68_exp_checked_iff says exactly when it panics, and that it agrees with the release build otherwise; C68_int_exp_checked the same for BigInt."
  },
  {
   "property": "C69",
   "status": "partial",
   "theorems": [
    "C69_documented_parameters_refuted",
    "C69_parameters_partial"
   ],
   "note": "False: l = 0 is documented but refused, u = 0 (or d = 0, ...) is accepted. The partial theorem characterises exactly what is accepted."
  },
  {
   "property": "C70",
   "status": "partial",
   "theorems": [
    "C70_failed_request_refuted",
    "C70_failed_request_partial"
   ],
   "note": "False: the system call writes into the caller's buffer before the shortage is detected and the same bytes stay in the queue. The partial theorem says exactly what a failed request leaves in the buffer."
  },
  {
   "property": "C71",
   "status": "partial",
   "theorems": [
    "C71_self_rem_refuted",
    "C71_self_rem_never_returns",
    "C71_self_assign_partial"
   ],
   "note": "False for %=: x %= x.clone() loops for ever when x = 1 and panics otherwise (witness and theorem); every other operator is right."
  },
  {
   "property": "C72",
   "status": "partial",
   "theorems": [
    "C72_from_frac_exact",
    "C72_min_refuted",
    "C72_nan_denominator_refuted",
    "C72_from_frac_partial",
    "C72_from_frac_bigint_partial",
    "C72_zero_denominator",
    "C72_from_integer"
   ],
   "note": "Refuted at isize::MIN and for from_frac_bigint with a NaN denominator. Proved for all other arguments. C72_from_frac_exact lists the panics and the negated results at isize::MIN."
  },
  {
   "property": "C73",
   "status": "partial",
   "theorems": [
    "C73_is_integer_refuted",
    "C73_signnum_refuted",
    "C73_is_integer_partial",
    "C73_signnum_partial",
    "C73_nan"
   ],
   "note": "Refuted for parsed '4/2' (is_integer) and '0/-5' (signnum). Proved for Rats in lowest terms (is_integer) and without signed zero (signnum)."
  },
  {
   "property": "C74",
   "status": "partial",
   "theorems": [
    "C74_zero_refuted",
    "C74_nan_refuted",
    "C74_display_partial",
    "C74_radix_partial",
    "C74_lowest_partial"
   ],
   "note": "Refuted for the zero with negative denominator and for NaN. Proved for every Rat with canonical sign and positive denominator, reduced or not, in decimal, hex, octal and binary."
  },
  {
   "property": "C75",
   "status": "proved",
   "theorems": [
    "C75_operators",
    "C75_assign",
    "C75_unary",
    "C75_mul_assign",
    "C75_no_other_panic",
    "C75_nan_parts",
    "C75_unary_parts",
    "C75_assign_parts"
   ],
   "note": "All Rats with a NaN part, in each of the two places."
  },
  {
   "property": "C76",
   "status": "proved",
   "theorems": [
    "C76_from_f64",
    "C76_from_f32",
    "C76_special",
    "C76_nan"
   ],
   "note": "All bit patterns of both machine formats."
  },
  {
   "property": "C77",
   "status": "partial",
   "theorems": [
    "C77_random_partial",
    "C77_nan",
    "C77_word_partial",
    "C77_zero_refuted"
   ],
   "note": "Range and sign proved for every stream, and that the result is canonical for bounds below one word; the claim about zero is false: a zero drawn with several words keeps the minus sign."
  },
  {
   "property": "C78",
   "status": "partial",
   "theorems": [
    "C78_rounds_partial",
    "C78_rounds_vacuous",
    "C78_rounds_refuted"
   ],
   "note": "False for n = c*2^32+1 with c odd, where the exponent is shifted to 0 and every base is accepted; proved when the shift of n-1 avoids the shr bug (shift_ok) and n is not a multi-word 2^e+1. What the rounds accept for every n: C105."
  },
  {
   "property": "C79",
   "status": "partial",
   "theorems": [
    "C79_assign_partial",
    "C79_values_partial",
    "C79_self_rem_refuted",
    "C79_self_bits_refuted",
    "C79_self_mixed_refuted",
    "C79_self_negative_partial",
    "C79_nan"
   ],
   "note": "Proved for handles without shared storage and, for clones, for + - * / and for the bit operators on a non-negative target. False otherwise: x %= x.clone() never returns, (-3) &= clone gives -4, and a negative target with a natural clone becomes NaN under &= |= ^=. What the bit operators give for a negative number and its own clone is stated exactly. A NaN stays NaN."
  },
  {
   "property": "C80",
   "status": "partial",
   "theorems": [
    "C80_magnitude_partial",
    "C80_untouched_partial",
    "C80_isolation",
    "C80_clones_agree_refuted",
    "C80_negative_zero_refuted"
   ],
   "note": "False: the sign belongs to the handle, so x = 3; y = x.clone(); x -= 5 leaves y = 2, and a clone can become a negative zero. Proved: the magnitude is always shared, untouched clones stay equal, other handles are isolated."
  },
  {
   "property": "C81",
   "status": "partial",
   "theorems": [
    "C81_rounds_partial",
    "C81_half",
    "C81_error_partial",
    "C81_test_partial",
    "C81_error_refuted"
   ],
   "note": "Proved for every composite n for which the shift of n-1 by its trailing zeros is one Nat gets right and which is not 2^e+1 of several words: the rounds accept exactly the sequences of strong bases, and those are at most the 2^-s part. False without the condition: for 2^32+1 = 641*6700417 every base is accepted (shift defect of C08). What the rounds accept for every n: C105."
  },
  {
   "property": "C82",
   "status": "partial",
   "theorems": [
    "C82_isolation_partial",
    "C82_fields",
    "C82_by_value_pure",
    "C82_copies",
    "C82_clone_changes_refuted",
    "C82_set_mant_exp_refuted",
    "C82_new_storage_partial",
    "C82_sum_changes_refuted"
   ],
   "note": "False: clone shares the mantissa, so x = 1.75; y = x.clone(); y.set_precision(1) turns x into 1, and y.set_mant_exp(x.clone(), e) empties both. Proved: handles of other clone families keep their value, a clone can only lose its mantissa (form, sign, exponent, precision, mode stay), and creating values changes nothing."
  },
  {
   "property": "C83",
   "status": "partial",
   "theorems": [
    "C83_assign_partial",
    "C83_self",
    "C83_shared_refuted",
    "C83_shared_difference",
    "C83_shared_sum",
    "C83_shared_zero",
    "C83_zero_refuted",
    "C83_doubles_refuted"
   ],
   "note": "Proved when x and y are not clones of each other, for x op= x.clone(), and for clones under shared_ok (the exponent of x is not the larger one). The other cases are described completely: if x has the larger exponent, taking away gives 0 and destroys y (C83_shared_difference), adding gives x + x (C83_shared_sum); 0 += y leaves both without mantissa (C83_shared_zero)."
  },
  {
   "property": "C84",
   "status": "partial",
   "theorems": [
    "C84_isolation_partial",
    "C84_clones_partial",
    "C84_assign",
    "C84_assign_nan",
    "C84_deep",
    "C84_copies",
    "C84_nan_refuted",
    "C84_numerator_refuted",
    "C84_denominator_refuted"
   ],
   "note": "False: x += NaN turns every clone of x into NaN, and assigning to x.numerator().clone() or x.denominator().clone() changes x (even to 1/0). Proved: Rats of other families keep their value, assigning without NaN leaves clones alone and gives the by-value result."
  },
  {
   "property": "C85",
   "status": "partial",
   "theorems": [
    "C85_account_partial",
    "C85_once_partial",
    "C85_all_or_nothing_partial",
    "C85_clone_refuted"
   ],
   "note": "False: a clone copies the queue, so after a short read both handles deliver the queued bytes (witness). Proved: an exact account of where every byte goes, and no duplicate when only empty queues are cloned, in particular whenever the system call writes all or nothing."
  },
  {
   "property": "C86",
   "status": "proved",
   "theorems": [
    "C86_draw",
    "C86_iterator"
   ],
   "note": "The hardware is an arbitrary list of (success flag, word). The 32-bit x86 gen_u64 is not modelled (it does not type-check)."
  },
  {
   "property": "C87",
   "status": "partial",
   "theorems": [
    "C87_rat_f64_partial",
    "C87_rat_f32_partial",
    "C87_float_f32",
    "C87_rat_big_refuted",
    "C87_rat_zero_partial",
    "C87_rat_zero_f32_refuted",
    "C87_float_special"
   ],
   "note": "Proved for Float on every finite single (the double case is C58_roundtrip) and for Rat on every nonzero number below 2^53 in magnitude, bit by bit with the exact flag. False of the code for Rat above that (2^60 comes back as 2^44, flagged exact), and for zero in single precision (to_f32 panics); -0.0 comes back as +0.0 from Rat."
  },
  {
   "property": "C88",
   "status": "proved",
   "theorems": [
    "C88_neg",
    "C88_abs",
    "C88_signnum",
    "C88_is_negative",
    "C88_is_infinite",
    "C88_get_inf",
    "C88_neg_compare",
    "C88_set_mode"
   ],
   "note": "All of it proved, for every well-formed Float."
  },
  {
   "property": "C89",
   "status": "partial",
   "theorems": [
    "C89_from_rat_integer_partial",
    "C89_from_rat_nan",
    "C89_from_rat_refuted",
    "C89_third_refuted",
    "C89_unreduced_refuted"
   ],
   "note": "Proved for integers in lowest terms and NaN. False of the code otherwise: every other number comes out too small by more than 2^29 (the division bug of C55; 1/3 becomes 0), and so do integers that are not in lowest terms (4/2 from text)."
  },
  {
   "property": "C90",
   "status": "partial",
   "theorems": [
    "C90_hex",
    "C90_octal",
    "C90_binary_partial",
    "C90_binary_prefix_refuted",
    "C90_display_injective"
   ],
   "note": "Hex, octal and '{:#b}' proved. '{:b}' prints the prefix although '#' is not given, for every integer (format string in bigint.rs:1061)."
  },
  {
   "property": "C91",
   "status": "proved",
   "theorems": [
    "C91_protocol",
    "C91_open_iff_reachable",
    "C91_no_leak",
    "C91_usable",
    "C91_crypto_new"
   ],
   "note": "Proved for every program over handles and clones; the only assumption is on the system: it does not hand out a handle that is still open."
  },
  {
   "property": "C92",
   "status": "partial",
   "theorems": [
    "C92_texts_partial",
    "C92_platform_refuted"
   ],
   "note": "Proved for the primitive provider, automatic selection and the algorithm name. False for ms_platform_crypto_provider: the terminating zero is not pushed, so the system reads on behind the buffer."
  },
  {
   "property": "C93",
   "status": "partial",
   "theorems": [
    "C93_filled_partial",
    "C93_fails",
    "C93_long_refuted",
    "C93_word"
   ],
   "note": "Proved for buffers below 2^32 bytes and for all CryptoRand words. False for longer buffers: the length is cast to 32 bits, and a buffer of 2^32 bytes is left untouched with Ok."
  },
  {
   "property": "C94",
   "status": "proved",
   "theorems": [
    "C94_nat",
    "C94_bigint",
    "C94_rat",
    "C94_float"
   ],
   "note": "All four types; the specification order_laws (SpecOrder.v) is the list of trait laws."
  },
  {
   "property": "C95",
   "status": "partial",
   "theorems": [
    "C95_contagious_refuted",
    "C95_arith_partial",
    "C95_and_or_partial",
    "C95_and_not_partial",
    "C95_division",
    "C95_unary",
    "C95_numeric"
   ],
   "note": "Proved for + - * / %, the unary operations and the number theory functions; for & | and_not with the sign condition stated in the theorems. False: and_not with NaN on the right returns its left operand, and a NaN with a minus sign (such as -3 % NaN) is read as a number by & and |."
  },
  {
   "property": "C96",
   "status": "partial",
   "theorems": [
    "C96_machine_partial",
    "C96_div_refuted",
    "C96_f64_partial",
    "C96_f32_partial",
    "C96_machine_mul"
   ],
   "note": "Proved for + - * in both formats, down to the bits f64()/f32() return. False for /: the quotient is never the machine's (division computes only the integer quotient of the significands; see C55). C96_machine_mul: the model of the processor's multiplication is IEEE 754 for every two patterns."
  },
  {
   "property": "C97",
   "status": "partial",
   "theorems": [
    "C97_add_sub_partial",
    "C97_word_partial",
    "C97_mul_ww",
    "C97_empty_refuted",
    "C97_mul_add_refuted",
    "C97_mul_add_vector_refuted",
    "C97_product_refuted",
    "C97_product_value_refuted",
    "C97_factors_ignored_refuted"
   ],
   "note": "Proved for sums, differences, single words added to non-empty vectors, and mul_ww; shifts and divisions are the same text. False: mul_add_www stores the summand instead of the sum (right only if x*y = c*2^32), so mul_add_vww and add_mul_vvw ignore the multiplicands; a word added to an empty vector is lost. The accumulated product is then z*(2^32+1) whatever x and y are (C97_product_value_refuted). The factors are ignored for every content (C97_factors_ignored_refuted)."
  },
  {
   "property": "C98",
   "status": "partial",
   "theorems": [
    "C98_isolation_partial",
    "C98_as_nat",
    "C98_nat_write",
    "C98_int_write",
    "C98_of_nat",
    "C98_by_value",
    "C98_shared_refuted"
   ],
   "note": "The claim that the handles are independent is refuted (C98_shared_refuted: n -= 3 on the magnitude of -3 leaves a negative zero). Proved for all histories: only the family is affected (C98_isolation_partial), the exact effect of a write on every member (C98_nat_write, C98_int_write), and BigInt::from copies (C98_of_nat)."
  },
  {
   "property": "C99",
   "status": "proved",
   "theorems": [
    "C99_default",
    "C99_exchange",
    "C99_uniform",
    "C99_independent",
    "C99_half",
    "C99_bigint"
   ],
   "note": "Any bound, any source of words; a counting argument, no probabilities assumed."
  },
  {
   "property": "C100",
   "status": "partial",
   "theorems": [
    "C100_prime_modulus",
    "C100_minstd_64",
    "C100_dead_seed",
    "C100_two_power",
    "C100_shipped_seed_1_refuted",
    "C100_shipped_short_refuted"
   ],
   "note": "False of minstd_rand0! and minstd_rand! as shipped (u32 products wrap): cycles of 21729 and 31396 from seed 1, of 210 and 629 from others, zeros only from some. Proved: full period for every prime modulus with a primitive root when the products fit (in particular both multipliers over u64), full period for power-of-two moduli in every width, and that multiples of the modulus as seeds give zeros."
  },
  {
   "property": "C101",
   "status": "partial",
   "theorems": [
    "C101_lucas_partial",
    "C101_accepts_partial",
    "C101_word",
    "C101_published_refuted"
   ],
   "note": "Proved for every n of one word without further hypothesis, and for every longer n except those on which the arithmetic is wrong (C08, C10): n-1 or n+1 divisible by too high a power of two, or n = 2^e+1. The exact answer for those too: C105."
  },
  {
   "property": "C102",
   "status": "partial",
   "theorems": [
    "C102_u64_partial",
    "C102_ranlux_partial",
    "C102_u32_refuted",
    "C102_seeds_refuted"
   ],
   "note": "Proved over u64 (every word size below 64, all lags, every seed with 40014*seed < 2^64 not divisible by 2147483563). False over u32 (seeding products wrap) and for seeds 0, multiples of 2147483563 and seeds above 2^64/40014."
  },
  {
   "property": "C103",
   "status": "partial",
   "theorems": [
    "C103_exact",
    "C103_reachable_partial",
    "C103_reachable_short",
    "C103_error_refuted",
    "C103_uneven_refuted"
   ],
   "note": "Exact result proved as an equivalence for every length, stream and round count. Reachability of every prime: unconditional up to 26 bits, beyond that under the conditions of C25 (the arithmetic of C08, C10 is right for n-1 and n+1, a non-square below 10002). False: no panic on a generator error; even distribution."
  },
  {
   "property": "C104",
   "status": "partial",
   "theorems": [
    "C104_nat",
    "C104_bigint",
    "C104_rat_partial",
    "C104_rat_refuted",
    "C104_nan"
   ],
   "note": "Proved for Nat and BigInt. False for Rat: rat.rs:759 passes the same format string for both forms, so '#' has no effect and the text of 16 parses as 10. C104_rat_partial gives the text that is printed."
  },
  {
   "property": "C105",
   "status": "proved",
   "theorems": [
    "C105_rounds",
    "C105_lucas",
    "C105_accepts",
    "C105_rounds_right",
    "C105_lucas_right",
    "C105_no_rounds",
    "C105_no_lucas"
   ],
   "note": "Proved for every n >= 128 without hypothesis on n (C105_accepts). The shift defect of C08 is part of the conditions; C105_rounds_right and C105_lucas_right show that they are the published ones where the shift is right. C101_published_refuted: the composite 89*2^32-1 fails the published Lucas test and is accepted."
  },
  {
   "property": "C106",
   "status": "partial",
   "theorems": [
    "C106_equal",
    "C106_order",
    "C106_sum",
    "C106_sum_word",
    "C106_product",
    "C106_product_word",
    "C106_word_division",
    "C106_bits",
    "C106_shl",
    "C106_octal",
    "C106_div",
    "C106_decimal",
    "C106_by_value",
    "C106_by_value_right",
    "C106_by_value_same",
    "C106_difference",
    "C106_difference_word",
    "C106_bit_length",
    "C106_not",
    "C106_shr",
    "C106_rem",
    "C106_hex_binary",
    "C106_canonical",
    "C106_product_text",
    "C106_small_product_refuted",
    "C106_zero_divisor_refuted",
    "C106_rounds",
    "C106_div_padded",
    "C106_padded_rem",
    "C106_div_padded_zero",
    "C106_rem_both_padded",
    "C106_padded_divisor_refuted",
    "C106_exponent",
    "C106_exponent_refuted"
   ],
   "note": "Proved exactly for every number kept in any number of words: the operations that are right, and what the others return (stored_compare, stored_difference, dividend in SpecLoose.v). The property itself is false: 3 * 5u32 is not equal to 15 and not less than 20, 20 - 3 * 5u32 is 2^64 - 5, and dividing by a zero of two words never ends (C106_zero_divisor_refuted, every fuel). Where the code works on a deep_clone (every a op b, /=, the decimal text) the left operand is right (C106_by_value, C106_by_value_right). Division by a divisor with leading zero words is described for every dividend (Properties_Loose2.v): it stops too early, with a remainder of the right class below 2^(32(k-1)), and for a zero divisor never (C106_div_padded_zero). Exponents with leading zero words (C106_exponent): right for a base above 1; for 0 and 1 a panic with overflow checks, and 0^0 = 0 without (C106_exponent_refuted)."
  },
  {
   "property": "C107",
   "status": "proved",
   "theorems": [
    "C107_euclid",
    "C107_zero"
   ],
   "note": "Every pair; C107_zero for a zero divisor."
  },
  {
   "property": "C108",
   "status": "proved",
   "theorems": [
    "C108_bits"
   ],
   "note": "Every pair and every bit; the two departures from the textbook (C34) are part of the statement."
  },
  {
   "property": "C109",
   "status": "proved",
   "theorems": [
    "C109_solve"
   ],
   "note": "Every b, with the number of solutions; departs from the textbook only in refusing negative b (C39)."
  },
  {
   "property": "C110",
   "status": "proved",
   "theorems": [
    "C110_compare",
    "C110_total_order"
   ],
   "note": "Every pair of Rats that are not NaN, and the laws of a total order."
  },
  {
   "property": "C111",
   "status": "proved",
   "theorems": [
    "C111_from_f64",
    "C111_from_f32",
    "C111_f32_nan"
   ],
   "note": "Every bit pattern; the division by 4^e is the defect of C50."
  },
  {
   "property": "C112",
   "status": "proved",
   "theorems": [
    "C112_add",
    "C112_sub"
   ],
   "note": "Every pair of well formed Floats; includes the defects of C54."
  },
  {
   "property": "C113",
   "status": "proved",
   "theorems": [
    "C113_to_f64",
    "C113_to_f32"
   ],
   "note": "Every well formed Float; includes the defect of C58."
  },
  {
   "property": "C114",
   "status": "proved",
   "theorems": [
    "C114_mul_range",
    "C114_binomial"
   ],
   "note": "Every pair of i64 values (binomial(-1, i64::MIN) left out: it would multiply 2^63 numbers)."
  },
  {
   "property": "C115",
   "status": "proved",
   "theorems": [
    "C115_exp"
   ],
   "note": "Every triple of canonical integers, build without overflow checks; includes the defects of C41."
  },
  {
   "property": "C116",
   "status": "proved",
   "theorems": [
    "C116_to_f64",
    "C116_to_f32"
   ],
   "note": "Every Rat that is not NaN; includes the defects of C51."
  },
  {
   "property": "C117",
   "status": "proved",
   "theorems": [
    "C117_mul",
    "C117_div"
   ],
   "note": "Every pair of well formed Floats; includes the defect of C55."
  },
  {
   "property": "C118",
   "status": "proved",
   "theorems": [
    "C118_from_frac",
    "C118_from_frac_bigint"
   ],
   "note": "Every pair; includes the defects of C72."
  },
  {
   "property": "C119",
   "status": "partial",
   "theorems": [
    "C119_nat_refines",
    "C119_int_refines",
    "C119_nat_fault",
    "C119_int_fault",
    "C119_fault_unique",
    "C119_fault_iff",
    "C119_quotes_partial",
    "C119_first_refuted"
   ],
   "note": "Kind and message are exact for every text. False: behind a prefix 0x, 0o, 0b the message quotes the last character that is no digit, not the first."
  },
  {
   "property": "C120",
   "status": "proved",
   "theorems": [
    "C120_rat_refines",
    "C120_rat_kind",
    "C120_rat_message",
    "C120_rat_others",
    "C120_float_refines",
    "C120_float_kind",
    "C120_float_message"
   ],
   "note": "All texts as lists of code points."
  },
  {
   "property": "C121",
   "status": "partial",
   "theorems": [
    "C121_silent_refuted",
    "C121_source_refuted",
    "C121_speaks_partial",
    "C121_float_speaks",
    "C121_mt_refines",
    "C121_mt_partial",
    "C121_mt_refuted",
    "C121_lf",
    "C121_lf_refines",
    "C121_lcg_refines",
    "C121_prime_refines",
    "C121_nt_status"
   ],
   "note": "False: a zero denominator, an LCG with m = 0 and the hardware generators give an error whose text is empty; source() is always None; the Mersenne twister with too large a word says m <= 32. All other texts are proved not empty and true."
  },
  {
   "property": "C122",
   "status": "proved",
   "theorems": [
    "C122_shown",
    "C122_exp",
    "C122_display",
    "C122_below"
   ],
   "note": "Total description: C122_shown (the number exists for every finite Float), C122_exp, C122_display (text or panic), C122_below (outside the word-multiple case the number shown is at most the value and above a tenth of it). flprec < 2^60 bounds the exponent text."
  },
  {
   "property": "C123",
   "status": "proved",
   "theorems": [
    "C123_step",
    "C123_multiple",
    "C123_word"
   ],
   "note": "Exact description of what is returned outside the definition of the symbol; the condition on shifts is dropped for every even |b| < 2^32 (C123_word)."
  },
  {
   "property": "C124",
   "status": "proved",
   "theorems": [
    "C124_integer",
    "C124_rat",
    "C124_nan"
   ],
   "note": "Total description of From<BigInt> and From<Rat> (C124_integer, C124_rat, C124_nan); the closed form of the wrong quotient is far_quotient."
  },
  {
   "property": "C125",
   "status": "proved",
   "theorems": [
    "C125_value",
    "C125_refused"
   ],
   "note": "C125_refused: a text is refused exactly when it has none of the forms of SpecFloatText.v; C125_value: the Float of every accepted text."
  },
  {
   "property": "C126",
   "status": "proved",
   "theorems": [
    "C126_add_sub",
    "C126_mul",
    "C126_div",
    "C126_unary",
    "C126_fraction",
    "C126_nan"
   ],
   "note": "The results as values, for all operands: add, sub, mul, div, neg, abs, inv, is_integer, signnum, from_frac_bigint, NaN. Where zero results differ from 0/1 the claims of C47 and C73 fail; C126 says what is stored there."
  },
  {
   "property": "C127",
   "status": "partial",
   "theorems": [
    "C127_small_partial",
    "C127_point_partial",
    "C127_zeros_refuted",
    "C127_checked_refuted",
    "C127_zero_refuted"
   ],
   "note": "False: with overflow checks every exponent above zero panics while the buffer size is computed; without them the zeros in front of the point are missing when the exponent exceeds the number of digits, and from three more on the allocation panics; zero shows as NaN. Proved where it holds: exponents up to zero in both builds, exponents up to the number of digits in release. The crate itself does not use this Display."
  },
  {
   "property": "C128",
   "status": "partial",
   "theorems": [
    "C128_nat_partial",
    "C128_bigint_partial",
    "C128_ignored_refuted",
    "C128_float_refuted",
    "C128_errors",
    "C128_rat_partial",
    "C128_debug",
    "C128_float_partial"
   ],
   "note": "False: every implementation ends in write!(f, \"{}\", s), which drops the options; only '#' is read, and the precision by {:e} and {:E}. Proved as an equivalence for Nat and BigInt in all radixes: the text is that of a primitive integer exactly when no '+' is asked for on a non-negative number and the width does not exceed the text. The binary text of BigInt without '#' is C90, Debug is C104. Error messages do follow the options. C128_rat_partial, C128_debug and C128_float_partial give the texts of Rat, {:?} and {:e} under all options."
  },
  {
   "property": "C129",
   "status": "partial",
   "theorems": [
    "C129_operators_partial",
    "C129_values_partial",
    "C129_others_refuted",
    "C129_text_refuted"
   ],
   "note": "Operators and comparisons: proved for all operands with canonical parts, as equality of the result with that of the mended operands. False for inv (0 instead of 1/a), is_integer and the text (\"3/0\" is refused when read back)."
  },
  {
   "property": "C130",
   "status": "partial",
   "theorems": [
    "C130_spreads_refuted",
    "C130_divisor_refuted",
    "C130_compare_refuted"
   ],
   "note": "False: a sum, difference, product or quotient with such a Float is again a finite Float without mantissa, marked Exact while the exponent is in range (C130_spreads_refuted gives the exponent; C130_divisor_refuted covers division by one), and it equals itself (C130_compare_refuted)."
  },
  {
   "property": "C131",
   "status": "partial",
   "theorems": [
    "C131_assign_partial",
    "C131_assign_refuted",
    "C131_words_refuted",
    "C131_canonical_partial",
    "C131_by_value"
   ],
   "note": "False: the vector of x is asked to grow by the room for the product minus the words it has; when leading zero words make this negative the argument wraps and reserve panics. Proved: exactly when (C131_assign_refuted, C131_assign_partial), that four *= u32 with a product below 2^32 are enough (C131_words_refuted), and that it never happens to a number without leading zero words (C131_canonical_partial) nor to x * y (C131_by_value). That Vec::reserve panics when length plus argument overflow usize is taken from the standard library."
  },
  {
   "property": "C132",
   "status": "partial",
   "theorems": [
    "C132_equal",
    "C132_order",
    "C132_sum",
    "C132_sum_right",
    "C132_product",
    "C132_shl",
    "C132_not",
    "C132_bits",
    "C132_shr",
    "C132_division",
    "C132_by_value",
    "C132_text",
    "C132_bit",
    "C132_complement_refuted",
    "C132_difference_refuted"
   ],
   "note": "False: !(-2^(32k)) keeps a zero word and differs from the number it is (C132_complement_refuted), and with x = !(-2^32) << 32, 2^64 - 1 minus x is -(2^96 - 2^32 + 1) (C132_difference_refuted). Proved for every number kept in any number of words: the operations that are right, and what the others return (stored_int_compare, stored_sum in SpecLooseInt.v; shift_result, dividend)."
  },
  {
   "property": "C133",
   "status": "partial",
   "theorems": [
    "C133_value",
    "C133_many_words",
    "C133_two_words",
    "C133_refuted"
   ],
   "note": "Partial because the property is false of the code: C133_refuted. C133_value is the value for every integer with a zero top word, C133_many_words the lengths from which the result is infinite, C133_two_words the case of two words, in which only zero keeps its value. Integers without leading zero words: C124."
  },
  {
   "property": "C134",
   "status": "partial",
   "theorems": [
    "C134_integer",
    "C134_natural",
    "C134_fraction_partial",
    "C134_zero_refuted"
   ],
   "note": "False for a zero denominator kept in several words: the error is missed and the denominator becomes 1 (C134_zero_refuted, for every numerator and length). Proved: C134_integer, C134_natural for every integer, C134_fraction_partial for every other denominator."
  },
  {
   "property": "C135",
   "status": "partial",
   "theorems": [
    "C135_bytes",
    "C135_trailing_zeros",
    "C135_square",
    "C135_sqrt_partial",
    "C135_sqrt_zero_refuted",
    "C135_gcd",
    "C135_mod_inverse"
   ],
   "note": "False for the root of a zero kept in several words, which panics (C135_sqrt_zero_refuted, every length above one). C135_sqrt_partial is the root of every other number; bytes, trailing zeros, squares, gcd and mod_inverse hold for all (the coefficients of gcd(0, 0) depend on the lengths, so C135_mod_inverse excludes that one case)."
  },
  {
   "property": "C136",
   "status": "partial",
   "theorems": [
    "C136_pow_partial",
    "C136_pow_zero_refuted",
    "C136_pow_mod",
    "C136_pow_mod_long",
    "C136_pow_mod_refuted"
   ],
   "note": "False in two cases: zero to the power of a zero of several words (C136_pow_zero_refuted) and moduli with leading zero words (C136_pow_mod_refuted; C136_pow_mod_long: a modulus with more words than the power leaves it unreduced). Proved: C136_pow_partial for all other bases and exponents of any length, C136_pow_mod for all bases and exponents of any length and every modulus without leading zero words."
  },
  {
   "property": "C137",
   "status": "partial",
   "theorems": [
    "C137_jacobi_partial",
    "C137_jacobi_zero_refuted",
    "C137_solve_partial",
    "C137_solve_refuted",
    "C137_jacobi_word"
   ],
   "note": "False for jacobi with a zero of several words as second argument (C137_jacobi_zero_refuted, what it returns for every first argument) and for moduli with leading zero words (C137_solve_refuted). Proved: C137_jacobi_partial for all other arguments, C137_solve_partial for all a and b of any length and every modulus without leading zero words."
  },
  {
   "property": "C138",
   "status": "partial",
   "theorems": [
    "C138_divisible",
    "C138_prime_refuted",
    "C138_even"
   ],
   "note": "False: every prime up to 53 with leading zero words is found composite (C138_prime_refuted). Proved: C138_divisible, C138_even, the answers for multiples of the small primes with leading zero words. The answers for numbers with leading zero words and no small factor are not described."
  },
  {
   "property": "C139",
   "status": "partial",
   "theorems": [
    "C139_random",
    "C139_zero_refuted"
   ],
   "note": "False for a zero kept in several words: no generator lets the loop end (C139_zero_refuted). C139_random gives the result for every bound with a zero top word and every generator; bounds without leading zero words: C23."
  },
  {
   "property": "C140",
   "status": "partial",
   "theorems": [
    "C140_nat_exp",
    "C140_exp",
    "C140_exp_checked",
    "C140_exp_refuted",
    "C140_mod_sqrt_partial",
    "C140_mod_sqrt_word"
   ],
   "note": "False in debug builds: 1 in one word makes a check of exp fail where 1 in two words does not (C140_exp_refuted). Proved: C140_nat_exp and C140_exp for every base, exponent and modulus in release builds; C140_exp_checked for bases of several words in debug builds; C140_mod_sqrt_partial for p = 3 modulo 4, for primes p = 5 modulo 8 and for p = 1 modulo 8 where the shift of p - 1 is right. C140_mod_sqrt_word: the right square root modulo every odd prime of one word, for numbers of any number of words."
  }
 ]
}