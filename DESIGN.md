# Formal model of rmath: design

The code under study is the Rust crate in `/repo` (arbitrary precision `Nat`, `BigInt`, `Rat`,
`Float`, plus pseudo random generators).  The model is written in Coq 8.16.1, in `rocq/theories/`.
`properties.jsonl` lists the properties; `MANIFEST.json` says which theorem settles which property.

## 1. Trusted base

* The Coq 8.16.1 kernel (`coqc`, re-checked with `coqchk`).
* The axioms listed by `Print Assumptions`.  Target: "Closed under the global context" for all
  theorems.  Section 5 lists the result.
* The hand translation Rust -> Gallina.  Each definition cites the file and lines it follows.

### What is modelled

* Only one configuration of the crate compiles: x86-64 with AVX2 (`build.rs`; without AVX2 there is
  no `mul_inner`, on other architectures `build.rs` stops).  That configuration is the primary
  model.  `nat_generic.rs` is modelled as a second back end and compared with the first.
* A `u32` word is a `Z` with the predicate `0 <= w < 2^32`; a `Vec<u32>` is a `list Z`, least
  significant word first, and a `Nat` is such a list (NaN is the empty list, as in the code).
* `_addcarry_u32`, `_subborrow_u32`, `wrapping_*`, `leading_zeros`, `>>`, `<<` and the AVX2
  widening multiply are modelled by their documented result on mathematical integers.
* `usize`/`isize` quantities (lengths, shift amounts, exponents) are `nat`/`Z` without upper bound,
  except where the code's overflow behaviour matters for the property; then the bound is explicit.
* A panic (`assert!`, index out of range, division by zero, arithmetic overflow in a debug build
  where it matters) is the value `Panic` of the result type `res`; a loop that is not structurally
  recursive takes fuel and returns `Fuel` when it runs out.  Theorems state `= Ok v`, so they also
  say "does not panic" and "terminates".
* Overflow that panics only in builds with overflow checks is a parameter `checks : bool` of the
  functions concerned (`exp`, `mul_range`, `binomial`, `From<i64>`, `mod_sqrt`, the primality test,
  the decimal text); theorems either quantify over it or name the build.
* `&mut` arguments become returned values.  Sharing through `Rc` is modelled in a separate file
  with an explicit heap (`Alias*.v`); everywhere else values are pure.  `Alias.v` follows the
  sequential effect of the raw-pointer accesses and does not judge whether Rust's aliasing rules
  make them undefined behaviour.
* Random generators passed as arguments are finite lists of outcomes (`Some word` or an error), so
  theorems about them quantify over every behaviour of the generator; a list that is too short for
  the function gives `Fuel`.
* Machine floats (`f32`, `f64`) are bit patterns in `Z`; `Ieee.v` defines their values and the few
  operations the code applies to them (classification, `to_bits`, `from_bits`, multiplication by a
  power of two with rounding to nearest even).  This is the hardware model and is trusted.
* `f64::from_str` of the standard library, called by `Rat::from_str`, is a parameter of the model.
* `Display` of `usize` inside the float text is the decimal printer proved for `Nat`.
* `mod_sqrt` takes a fuel argument for its search for a non-residue and its repeated squaring; the
  theorems show that enough fuel exists.

### What is not modelled

* Allocation failure, stack depth, timing, performance.
* The inside of the hardware generators (`rdrand`, `rdseed`: an oracle in `RandClone.v`), wall-clock hashing in `DefaultSeed`, the Windows foreign functions (oracles in `WinCrypt.v`).
* `arith_amd64.rs` is modelled (`ArithAmd64.v`) only as a second implementation of the primitives; its `cfg` is never set by `build.rs`, and no other file uses that model.
* What `mod_sqrt` does with a modulus with leading zero words, and what the Miller-Rabin and Lucas tests do for arguments with leading zero words, is not described by any theorem; their models are exact for arguments without them.
* `unsafe` pointer arithmetic is modelled as list slices; an out-of-range slice is an error value.

## 2. Layers

| files | content |
|---|---|
| `Words.v`, `WordsFacts.v` | result type, words, `nval` (value of a word list), canonical form, list lemmas |
| `Spec*.v` | specification vocabulary, independent of the model |
| `NatModel.v`, `NatFacts*.v` | add, sub, mul, shifts, div/rem, word operand ops, bit ops, compare |
| `NatConv.v`, `NatConvFacts.v` | byte strings, parsing, printing |
| `NatPow.v`, `NatPowFacts.v` | pow, pow_mod, sqrt |
| `VecPrims.v`, `VecFacts.v` | word-vector primitives (`arith_generic.rs`) |
| `Karatsuba.v`, `KaraFacts*.v` | Karatsuba multiplication and squaring in one buffer |
| `NatExp.v`, `NatExpFacts*.v` | Montgomery, windowed and plain modular exponentiation |
| `NatGeneric.v`, `NatGenericFacts.v` | the portable back end |
| `NatPrime.v`, `NatPrimeFacts*.v` | random, Miller-Rabin, Lucas, prime generation |
| `Alias.v`, `AliasFacts.v` | heap model of clone / deep_clone / op-assign of Nat |
| `AliasInt.v`, `AliasIntFacts.v` | the same for BigInt handles (shared magnitude, own sign) |
| `AliasFloat.v`, `AliasFloatFacts.v` | the same for Float handles (shared mantissa, own fields) |
| `Errors.v`, `ErrorsFacts.v` | error values of all modules: kinds, texts, sources |
| `AliasRat.v`, `AliasRatFacts.v` | the same for Rat handles and BigInt handles to their parts |
| `BigInt.v`, `BigIntFacts*.v` | BigInt |
| `NumBig.v`, `NumBigFacts*.v` | jacobi and mod_sqrt of BigInt |
| `NumTheory*.v` | number theory (Fermat, Euler, quadratic reciprocity, Lucas sequences); nothing about the code |
| `Ieee.v`, `IeeeFacts*.v` | machine floats |
| `Rat.v`, `RatFacts*.v` | Rat |
| `Float.v`, `FloatFacts*.v` | Float |
| `Decimal.v`, `DecimalFacts*.v` | decimal text of Float |
| `Rand.v`, `RandFacts*.v` | generators, iterator, OS entropy queue |
| `WinCrypt.v`, `WinCryptFacts.v`, `SpecWin.v` | os/windows/bcrypt.rs: handles, texts, draws; the foreign functions are oracles |
| `RandClone.v`, `RandCloneFacts.v` | programs with several entropy handles; rdrand / rdseed as an oracle |
| `Properties_*.v` | only the final theorems, examples and `Print Assumptions` |

A model file contains definitions only; proofs are in the companion `...Facts*.v`; the final
statements are in `Properties_*.v` and are phrased with integer arithmetic (`Z.div`, `Z.testbit`,
`Z.gcd`, ...), rationals and small specification functions, never with model helpers on both sides.

A property that is false of the code is settled by a theorem `..._refuted` with a concrete witness,
next to a `..._partial` theorem proving the strongest true part.

## 3. Plan per property

| id | model | method |
|---|---|---|
| C01 | add_inner (ADC loop) | induction on word lists, carry invariant; `nval (add a b) = nval a + nval b`, canonical |
| C02 | sub_inner_with_sign (SBB loop, swap) | induction, borrow invariant, comparison lemma |
| C03 | mul_inner (AVX2 column sums) | column-sum invariant with bound on the accumulator; value by convolution |
| C04 | div_inner, rem_inner | loop invariant a = q b + r with bits_len measure; fuel shown sufficient |
| C05 | *_inner_basic | induction over words |
| C06 | all operations | canonical-form lemmas; refuted for `x * w`, `x - w`, `0 << 32`, `random` |
| C07 | shl_inner | split into word and bit part |
| C08 | shr_inner | refuted (word-multiple shifts); partial: k < 32 or k >= 32*len; exact value of every right shift against SpecShift.v, for C35 too, and an iff for being right (ShiftFacts.v, Properties_Shift.v) |
| C09 | bit operators | `Z.testbit` of `nval` |
| C10 | eq / partial_cmp | induction from the top word |
| C11 | operators | case analysis on the operator table |
| C12 | byte conversions | induction in chunks of four |
| C13 | fmt | digit-list semantics |
| C14 | FromStr | digit-list semantics, no `Panic` |
| C15 | both | composition |
| C16 | pow_inner | square and multiply invariant |
| C17 | pow_mod_inner | same modulo n |
| C18 | exp, montgomery, windowed | Montgomery reduction invariant; window invariant |
| C19 | sqrt | Newton iteration invariant, decreasing measure |
| C20 | karatsuba | induction on length, buffer as list |
| C21 | sqr | same |
| C22 | heap model | simulation over arbitrary histories |
| C23 | random | stream-quantified |
| C24 | probably_prime_test | computation below 128, divisibility above |
| C25 | Miller-Rabin, Lucas | refuted (base 0 is drawn; a 3-word prime is shifted wrongly, its primality by Pocklington's criterion in NumTheory6); partial with non-zero bases |
| C26 | generate_prime | stream-quantified |
| C27 | bits_len, is_set_bit, trailling_zeros | induction / testbit |
| C28 | generic back end | equality of results |
| C29 | arith_generic | induction |
| C30-C46 | BigInt | on top of Nat lemmas, integers `Z` as specification |
| C47-C52 | Rat | cross multiplication in Z; floats by bit patterns |
| C53-C60 | Float | value as pair mantissa/exponent of integers; rounding spec in Z; quotients exactly (`FloatFacts11.v`, `Properties_Quotient.v`): a sticky bit is one more word below the mantissa; `round` with a sticky bit in `Properties_Sticky.v` |
| C61-C66 | Rand | state machines, induction over steps |
| C67 | slice primitives | refuted, exact description |
| C68 | exp with overflow checks | exact set of panicking operands |
| C69, C70 | twister parameters, entropy queue | exact description |
| C71 | heap model | one step with both handles equal |
| C72-C75 | Rat | cross multiplication |
| C76 | Float from machine floats | bit patterns to rationals |
| C79, C80 | heap model of BigInt | invariant over histories |
| C82, C83 | heap model of Float | invariant over histories; every case of `+=`/`-=` between clones is described |
| C84 | heap model of Rat | cells belong to families |
| C85, C86 | entropy handles, hardware words | accounting by permutations; oracle lists |
| C88, C89 | Float sign operations, From<Rat> | case analysis on the form; `from_frac_float` |
| C90 | BigInt formatting | from C13; `SpecText.v` gives the digit alphabets |
| C91-C93 | Windows entropy back end (`WinCrypt.v`) | ownership invariant: reference counts = pointing variables, open handles = owners |
| C94 | Comparison laws of the four types (`Properties_Order.v`, spec `SpecOrder.v`) | key functions into lawful orders |
| C95 | NaN operands of `BigInt` (`Properties_BigNan.v`) | case analysis over signs; the failing branches are exhibited |
| C96 | `Float` at machine precision against IEEE 754 (`FloatFacts10.v`, `Properties_Ieee.v`) | nearest machine float = rounding to `mb+1` bits in the normal range, uniqueness of rounding to even |
| C97 | SSE2 back end against the portable one (`ArithAmd64.v`, `Properties_Sse2.v`) | carry by carry |
| C98 | A `Nat` out of a `BigInt` shares its storage (`AliasMixed.v`, `SpecAliasMixed.v`, `Properties_AliasMixed.v`) | families of clones across both types |
| C99 | `random` is uniform (`SpecUniform.v`, `UniformFacts.v`, `Properties_Uniform.v`) | involution on streams, counting with duplicate-free lists |
| C100 | Period of the linear congruential generators (`SpecPeriod.v`, `LcgPeriod.v`, `Properties_Period.v`) | order of a primitive root, 2-adic valuation of geometric sums, pigeonhole; the short cycles are computed |
| C101 | Which numbers the primality test accepts (`SpecLucas.v`, `LucasFacts.v`, `Properties_Lucas.v`) | Lucas sequences modulo any odd n (ladder, the stuck values 2 and -1), Jacobi symbols by factor lists, uniqueness of the parameter and of the decomposition of n + 1 |
| C102 | RANLUX base generators against the C++ standard (`SpecRanlux.v`, `Properties_Ranlux.v`) | executable specification of [rand.eng.sub], checked against the two values printed in the standard; equality of sequences from the recurrence of C64 |
| C103 | generate_prime exactly (`SpecGen.v`, `GenFacts.v`, `Properties_Generate.v`) | inductive relation over the generator outcomes with the primality test as a parameter; equivalence with the loop; reachability by exhibiting the stream |
| C104 | `Debug` formats (`DebugFmt.v`, `Properties_Debug.v`) | from C13, C15, C45; counterexample for Rat |
| C105 | What the primality test answers for every number (`SpecPrimeCode.v`, `PrimeExactFacts.v`, `LucasExactFacts.v`, `Properties_PrimeExact.v`) | the value of every right shift (C08) as exponent and index; the shift may leave zero words on top, which go through the power and the ladder; n = 2^(32k) + 1 apart because n - 2 is padded and compared so |
| C106 | Numbers with leading zero words (`SpecLoose.v`, `LooseFacts.v`, `Properties_Loose.v`; padded divisors in `LooseFacts2.v`, `Properties_Loose2.v`) | value and length of every result for arbitrary word lists; the left operand is trimmed wherever the code works on a `deep_clone`; in `%=` it is not, and the first step of the loop may wrap round (adds 2^(32 l)), after it the remainder is canonical; the endless loop by induction over the fuel; exponents of `exp` in `Properties_LooseExp.v` |
| C107-C118 | Total descriptions (`Properties_Total.v`, `Properties_Total2.v`) | what an operation returns for every operand, the defects written into the statement; the cases come from C33, C34, C39-C41, C49-C51, C54, C55, C58 and C72 |
| C119-C121 | Error values (`Errors.v`, `SpecErr.v`, `Properties_Errors.v`) | which kind and which text an operation that fails returns; `fault` describes what is wrong with a text without the parser |
| C122 | The text of every finite Float (`SpecDecimal2.v`, `DecimalFacts5.v`, `Properties_FloatShow.v`) | the number written in place of the value (`shown`), then the rounding lemmas of C59; a second lemma for digits that end with zero, where ties go up |
| C123 | `jacobi` with an even second argument (`Properties_Jacobi.v`) | the first round of the loop has no sign for an even b, so it leaves the symbol of the other order; the negative multiple goes through the `rem_euclid` defect of C33. The file also has the laws of C42 |
| C124 | `Float::from` of every integer and every Rat (`FromRatFacts.v`, `Properties_FromRat.v`) | all fields of the Float made of an integer (rounding to its own length keeps every word), then the total description of the quotient, C117 |
| C125 | every text as a Float (`SpecFloatText.v`, `Properties_FloatTexts.v`) | an inductive description of the accepted texts, equivalent to the parser's splitting step by step; the number in lowest terms, then C124 |
| C126 | the stored fields of every Rat result (`Properties_RatExact.v`) | `norm` on a sign and a magnitude, uniqueness of lowest terms for the squaring shortcut |
| C127 | `Display` of `Decimal` (`DecimalShow.v`, `Properties_DecimalShow.v`) | case analysis on the wrapped capacity; the text as digits around a point |
| C128 | format options (`Formatter.v`, `SpecFormat.v`, `Properties_Flags.v`, `Properties_Flags2.v`) | lengths: the texts differ as soon as '+' or the width adds a character |
| C129 | Rats with denominator zero (`Properties_ZeroDen.v`) | the operators read 0 as 1, so C48 and C49 apply to the mended operands |
| C130 | Floats without mantissa (`Properties_Hollow.v`) | refuted: the results are finite, without mantissa and marked Exact; their exponent is given |
| C131 | Multiplying in place (`NatModel.v` `mul_assign_inner`, `Properties_Room.v`) | the room for the product from the lengths of the two factors; refuted for receivers with leading zero words |
| C132 | BigInts with leading zero words (`IntLoose.v`, `SpecLooseInt.v`, `Properties_LooseInt.v`) | value and length of every result from the ones of the magnitudes (C106) |
| C133 | `Float::from` of integers with leading zero words (`Properties_LooseFloat.v`) | the shift by 32 as an or of neighbouring words, then the rounding of a mantissa that is not normalised |
| C134 | `Rat` made of integers with leading zero words (`Properties_LooseRat.v`) | `deep_clone` trims (C132); the zero test by words |
| C135 | bytes, trailing zeros, squares, roots, gcd of numbers with leading zero words (`Properties_Loose3.v`) | Newton's iteration from any start; the tests for zero at the start of `gcd` case by case |
| C136 | `pow`, `pow_mod` of numbers with leading zero words (`Properties_Loose4.v`) | the bits of the exponent below `bits_len` are those of its value (C106) |
| C137 | `jacobi`, `solve_mod_linear_equation` of numbers with leading zero words (`Properties_Loose5.v`) | the receivers are trimmed copies; gcd from C135 |
| C138 | `probably_prime_test` of numbers with leading zero words (`Properties_Loose6.v`) | trial division on any word list (C24) |
| C139 | `random` below a bound with leading zero words (`Properties_Loose7.v`) | the mask is all ones; rejection sampling on whole words as in C23 |
| C140 | `exp` and `mod_sqrt` of numbers with leading zero words (`Properties_Loose8.v`) | the value alone decides, for p = 3 modulo 4, primes p = 5 modulo 8, and p = 1 modulo 8 with a right shift of p - 1; the overflow check of C68 fires only for bases of one word |
| C87 | f32 / f64 through Rat and Float and back | composition of C50/C51 and C58/C76: the nearest pattern to a pattern's value is itself |
| C77, C78 | random BigInt, Miller-Rabin rounds | stream-quantified |
| C81 | share of accepted base sequences | Miller-Rabin bound (NumTheory5), counting |

Nothing in the list is left out as inexpressible; what turns out unprovable in the available time is
marked `_partial` with the missing part named.

## 4. Bugs found in the code while modelling

Each is a theorem whose name ends in `_refuted` (witness given there).

* C06, C28: `x * u32`, `x - u32`, `0 << 32` and `random` leave high zero words.
* C08: `>>` is wrong for shifts by whole words and may keep a stale top word; inherited by C35
  (BigInt `>>`), C42 and C43 (panics in `jacobi` and `mod_sqrt`), C25 and C78 (primality test).
* C14: `"007"` is refused, `"0x"` parses to NaN.
* C25: a zero base rejects every prime from 128 on; the prime 2^32·3^11·24251 + 1 is rejected with
  base 2, since n - 1 is shifted wrongly.  C78: for `c * 2^32 + 1` the Miller-Rabin
  rounds accept whatever is drawn.
* C32, C77: negative zeros from `/`, `%` and `random`.
* C33: `rem_euclid(-4, 2) = 2`.  C34: `4 | -1 = -5`, `and_not` swaps operands, `!` not canonical.
* C38: `mod_inverse` of a non-unit is not NaN.  C39: negative right-hand sides have no solution.
* C40: `mul_range`, `binomial` at the ends of `i64`.  C41: `exp` with negative odd exponents.
* C47, C49, C72, C73, C74: signed zeros and unreduced fractions from parsing `Rat`.
* C50: `Rat::from_f64` is wrong from 2^53 on.  C51: exactness flag, `to_f32(0)` panics.
* C54: settings taken from the wrong operand, signs of special results.  C55: every finite quotient
  of `Float` is wrong.  C56: `From<i64>` at the minimum.  C58: tiny values become the least normal
  number.  C59: decimal text of numbers with an inner zero digit.  C60: `set_mant_exp` on a clone.
* C61: `minstd_rand0` overflows.  C63: tempering shifts of the Mersenne twister.  C64: borrow of
  the lagged Fibonacci generator at full width.  C67: `shl_vu`, `div_wvw`.  C68: `exp` shift by 32.
  C69: documented parameters refused.  C70: a failed request leaves entropy behind.
* C71, C79: `x %= x.clone()` loops or panics; C79: bit operators on a negative clone of itself.
* C80: assigning to a BigInt changes the magnitude but not the sign of its clones.
* C82, C83: rounding a Float in place rounds its clones, and `-=` or `+=` with a clone whose exponent
  differs gives a wrong result or a number without mantissa.
* C85: a clone of the entropy source delivers the queued bytes a second time.
* C89: `Float::from(Rat 1/3)` is 0.
* C90: `format!("{:b}", BigInt)` prints the `0b` prefix.
* C92: `ms_platform_crypto_provider` passes a text without a terminating zero.
* C93: Windows `gen_random` cuts the length to 32 bits.
* C87: `Rat::from(2^60 as f64).to_f64()` is 2^44; `Rat::from(0f32).to_f32()` panics.
* C95: `5.and_not(NaN)` is 5; `-3 % NaN` is a NaN that `&` and `|` take for a number.
* C96: no quotient of two 53-bit Floats is the f64 quotient (C55), against float.rs:48-53.
* C98: `x.as_ref().clone()` is a `Nat` on the storage of `x`; writing through it changes `x` and can leave a negative zero.
* C100: `minstd_rand0!` and `minstd_rand!` have cycles of a few thousand numbers instead of 2^31 - 2.
* C102: `ranlux24_base!` over u32 does not give the standard's sequence (the seeding generator wraps).
* C103: `generate_prime` panics (`unwrap` on an empty vector) when the generator fails at the start of a group of words.
* C104: `{:#?}` of a `Rat` prints no prefix; the text of 16 parses as 10.
* C105: the composite 89*2^32-1 = 73*5236329991 passes the Lucas part (its index is shifted
  to 0) and is accepted with the base 1; a number c*2^(32j)+1 accepts every base.
* C131: after `x *= 5u32` four times, starting from 3, `x *= Nat::from(7u32)` panics ("capacity overflow").
* C106: `Nat::from(3u32) * 5u32` differs from 15, and subtracting it from 20 gives 2^64 - 5; `x / (zero << 32)` does not end.
* C132: `!(-2^32)` differs from 2^32 - 1; after `x = !(-2^32); x <<= 32`, 2^64 - 1 minus x is -(2^96 - 2^32 + 1).
* C133: `Float::from(Nat::from(3u32) * 5u32)` is 15 + 15/2^32; `f64::from(Float::from(Nat::from(0u32) << 32))` is 2^31.
* C134: `Rat::from_frac_bigint(&BigInt::from(5u32), &(BigInt::from(0u32) << 32))` is `Ok(5)`, not an error.
* C135: `(Nat::from(0u32) << 32).sqrt()` panics.
* C136: `Nat::from(0u32).pow(Nat::from(0u32) << 32)` is 0; 2^4 modulo `Nat::from(3u32) * 5u32` is 16.
* C137: `BigInt::from(5u32).jacobi(&(BigInt::from(0u32) << 32))` panics; `x = 20 mod 3 * 5u32` has the solution 20.
* C138: `(Nat::from(7u32) * 1u32).probably_prime_test(..)` is false.
* C139: `(Nat::from(0u32) << 32).random(..)` never returns.
* C140: in a debug build 1 to the power 2^32 modulo 5 panics, while 1 kept in two words gives 1.
* C97: `mul_add_www` of the (disabled) SSE2 back end stores the wrong register.
* C84: `x += NaN` destroys the clones of `x`; a BigInt cloned from `numerator()` writes into the Rat.

`Properties_FloatParse.v` adds texts with point and exponent to C59.
`Properties_Exact.v` (with `SpecExact.v`, `RatTinyFacts.v`, `LfgFacts.v`) says exactly what
the code returns where C33, C40, C41, C51, C64 and C72 are false.
`Properties_Special.v` and `Properties_Tight.v` collect corner cases of C12, C36, C54, C59, C60, C63, C64, C75, C79, C82 and C83.

### Conformance tests
`RepoTestsNat.v`, `RepoTestsInt.v` and `RepoTestsRat.v` run the repository's own
unit tests (`nat/tests.rs`, `bigint/tests.rs`, `rat/test.rs` under `src/bigint`) in the model: 17, 16 and 9 checks,
with the numbers of the Rust tests.  They are tests of the model, not proofs.
Left out: moduli above 60 digits and primes above 22 digits (too slow in the
kernel), and tests that draw random numbers.  The repository has no tests of
`Float` or of the generators.

## 5. Axioms

`Print Assumptions` is run under every theorem in `Properties_*.v`.  Every one answers "Closed under
the global context"; no theorem uses an axiom.  (`coqchk` lists seven `Coq.ssr.ssrunder` axioms of
the standard library, because a loaded library module declares them; no theorem depends on them.)

## 6. Mutation testing

`seeded/LOG.jsonl` has one entry per wrong program tried: the definition edited, the edit, the claim
it breaks, the theorems that stopped proving and the theorems tightened after it.
