# A machine-checked model of halo2curves

The subject is the Rust crate in `/repo` (halo2curves, pinned commit).  The
model and the proofs are written for Coq 8.16.1 and live in `rocq/theories`.

## 1. Shape of the model

The crate is a stack of generic layers; the model keeps the same layers.

1. **Words and limbs.**  A `u64` is a `Z` in `[0, 2^64)`; an array `[u64; n]`
   is a `list Z` of length `n`, least significant limb first.  Wrap-around is
   written out (`mod 2^64`), so nothing relies on machine behaviour that is not
   in the model.  `adc`, `sbb`, `mac`, `macx`, `mul_512` are modelled one by one.
2. **Prime fields** (`impl_field!`).  The macro unrolls loops over the limbs at
   macro-expansion time; the model is the loop, for every limb count `n` and
   every modulus.  Elements are limb lists in Montgomery form.  The derived
   constants (`R`, `R2`, `R3`, `inv64`, `S`, ...) are computed by the model the
   way the macro computes them.
3. **Inversion and Jacobi symbol** (`ff_ext/inverse.rs`, `ff_ext/jacobi.rs`) on
   62-bit and 64-bit signed chunk lists, loops with explicit fuel.
4. **Everything generic over a field** (towers, curves, encodings, MSM, FFT,
   hash-to-curve, pairing) is modelled over a record of field operations, the
   image of the Rust trait bounds.  Theorems assume the record satisfies the
   field laws; the limb-level model of layer 2 is proved to satisfy them
   (for prime moduli), and the moduli of the crate are proved prime, so the
   assumptions are discharged for the concrete curves.

Model files contain no proofs.  Specifications (`Spec*.v`) are separate and do
not mention the model.  Theorems that state the properties are in `Props*.v`,
each followed by `Print Assumptions` and by an `Example` showing a concrete,
non-trivial instance that meets the hypotheses.

A panic of the Rust code is an explicit error value in the model; running out
of fuel is an explicit error value too.

## 2. Conventions of the theorems

* A theorem named `*_partial` proves part of the property; the missing part is
  named in the comment and in `MANIFEST.json`.
* A theorem named `*_refuted` proves that the faithful model violates the
  property as stated; it exhibits a concrete input.  The theorem next to it
  proves the property under the weakest restriction found.

## 3. Properties: what is modelled and how it is proved

| id | model | method |
|----|-------|--------|
| C01 | limb loops of `add/double/sub/neg` | carry-chain invariant by induction on the limb list; refinement to `Z mod p` for all n, p |
| C02 | schoolbook product, squaring with doubled cross terms, `mont` rounds with `carry2` | loop invariant per round; bound `T < p*2^(64n)` gives one conditional subtraction |
| C03 | `from_raw`, `from_u128`, `From<u64>` | corollary of C02 with bound for unreduced inputs |
| C04 | `Endian`, `from_repr/to_repr/from_bytes/to_bytes` | bijection bytes <-> integers by induction |
| C05 | `from_uniform_bytes` for every N | C02 plus digit splitting |
| C06 | `CInt`, `jump`, `fg`, `de`, `norm`, `invert` | refinement of chunk arithmetic to Z, divstep invariants, termination measure |
| C07 | `LInt`, `approximate`, `jacobinary`, `jacobi` | Jacobi symbol defined by Gauss/Schering count, reciprocity by lattice count; loop invariant |
| C08 | `pow`, both sqrt branches | Euler criterion; Tonelli-Shanks loop invariant |
| C09 | derived constants of the macro | computation for each modulus, order argument |
| C10 | - | Pocklington certificates, theorem proved in Coq |
| C11 | `ct_eq`, `cmp`, `is_odd`, `to_le_bits` | digit lemma |
| C12 | `lexicographically_largest` | boundary analysis (expected: refuted at (p-1)/2) |
| C13 | `SerdeObject` for fields, readers as byte lists | list lemmas |
| C14 | `best_fft`, both code paths, thread count a parameter | induction on log n to the DFT sum |
| C15 | `get_booth_index` on byte lists | digit telescoping |
| C16 | `msm_serial`, `msm_parallel` over an abstract commutative group | bucket-sum invariant |
| C17 | `msm_best` with `Schedule`, `batch_add` | scheduler invariant; refutation for identity bases |
| C18, C20 | tower operations | `ring` over the generic base ring |
| C19 | tower inversion | norm argument |
| C21 | `is_zero` | refutation for the cubic case |
| C22 | `frobenius_map` with tables | ring homomorphism argument, table check by computation |
| C23 | `cyclotomic_square` | polynomial identity modulo the cyclotomic relations |
| C24 | `sqrt_algo9/10` | case analysis on exponent identities |
| C25 | `Add`, mixed add, `double`, ... | polynomial identities against the chord-tangent specification, absence of 2-torsion exceptional cases treated explicitly |
| C26 | same | associativity of the chord-tangent law |
| C27 | `Mul` | induction over bits |
| C28 | `ct_eq`, `to_affine`, `batch_normalize` | prefix-product invariant |
| C29-C31 | `Compressed`, uncompressed encodings | bit-level lemma on flags; refutations for exceptional points |
| C32 | raw point serialization | refutation for `read_raw` and z=0 |
| C33 | `from_bytes` for curves with cofactor | refutation with a concrete point |
| C34 | `decompose_scalar` | exact lattice bounds with `lia` over concrete constants |
| C35 | `endo` | homomorphism plus one computed equality |
| C36 | SVDW, SSWU | polynomial identities, residue symbols |
| C37 | `expand_message`, `hash_to_field`, hash abstract | list reasoning against the RFC text |
| C38 | `iso_map` | polynomial identity checked by computation over Z mod p |
| C39, C41, C42 | Miller loop, line functions, Gt | induction on the loop |
| C40 | `final_exponentiation` | exponent calculus in the cyclotomic group |
| C43 | cofactor functions | the functions as elements of Z[t]/(t^4-t^2+1) acting by psi, evaluated on generators of the whole group |
| C44 | parameters | computation |
| C45 | tower encodings | as C04; refutation of the "None, not a panic" part |
| C46 | SVDW, SSWU | same proof as C36, against SpecH2c.v |
| C47 | the three engines | the untwist is a group homomorphism into E(Fp12); each line of the code is a textbook line times a factor killed by the final exponentiation |
| C48 | curve parameters | subgroups spanned by explicit points of known order, against the bound 2q+1 |
| C49 | pairings | Weil reciprocity for products of lines, with an auxiliary subgroup of another prime order |
| C50 | pairings | e(g1, g2) computed over BigZ and carried over by a homomorphism; then C49, C43, C39 |
| C51 | x86-64 blocks of feature `asm` | symbolic execution over arbitrary words, one lemma per block; carry sums bounded as integers |
| C52 | hash_to_curve | C37, C38, C43, C46 put together over the limb fields; uniqueness of signed roots |
| C53 | random sampling | the generator is a state machine argument; counting of residues; cofactor facts of C43; exponent of C40 |
| C54 | bn256 table | entry = Montgomery token; uniqueness of reduced forms |
| C55 | serde | hexadecimal text as a relation; C04, C29, C30, C33 |
| C56 | sqrt_ratio | the root of unity is a non-residue; lemma of the simplified SWU map |
| C57 | Fp2 order, constants | C11, C12, C09 on the coefficients; norms for squares |
| C58 | Debug build does not panic | the bounds inside the proofs of C06, C07, C15; simulation step by step |
| C59 | ECDSA example | field and scalar multiplication theorems composed; group law |
| C60 | Pairing signatures | composition of C27, C43, C49, C50, C52 over the limb arrays |
| C61 | Debug texts and MODULUS | induction over the digits with an inductive specification of numerals; fixed-length texts compose |
| C62 | Polynomial commitments | composition of C03, C14, C16, C17, C27, C28, C49, C50; division by X - z by induction; the transform of the points is the transpose of that of the scalars |
| C63 | Selection and comparison | bitwise facts about one word, then componentwise |
| C64 | Cycles of curves, embedding degrees | the point counts of C48 and C33; the powers of p modulo r evaluated |
| C65 | Scheduling of the multi-scalar multiplication | tasks as state machines with one cell each; a run of the pool is a run of each task alone |
| C66 | Window size from the logarithm | bounds on e from 1 + x < exp x; the functions depend on the logarithm only through the window size |
| C67 | Rounds of the inverter | a pass of 2e division steps that consumes e bits multiplies the form f^2 - f(2g) + (2g)^2 by at most (4/9)^e (DivstepBound); the loop follows the division steps 62 at a time (InvertRounds) |
| C68 | Rounds of the Legendre symbol | measure 34 log2 max + log2 product: in each round the larger number loses a bit and the product gains at most five, or the product loses 29 (JacobiProg, JacobiLoop) |
| C69 | Multiplication of polynomials by the Fourier transform | the transform evaluates at the powers of the root; multiplication by X modulo X^n - 1 rotates the coefficients; uniqueness of representations turns the product of the values into the transform of the product (Props_Poly) |
| C70 | Cosets of the roots of unity | MULTIPLICATIVE_GENERATOR has order p - 1 (C09), hence its powers are all elements by counting; coprime exponents 2^S and t split them (Props_Cosets) |

## 4. Not modelled

* Timing / constant-time behaviour.
* `rand`, `serde`, `rayon`, `digest` crates: the random generator is an argument, thread
  scheduling is any interleaving of the statements of the closures (C14_interleaving, C65), hash functions are arbitrary functions (and SHA-256
  in the test vectors).
* `pasta_curves` (re-exported, not part of this repository), except the `endo!`
  instances with its moduli.
* Benchmarks, tests other than the ECDSA example (section 8 relates them to theorems).

## 5. Trusted base

Coq's kernel (including `vm_compute`), the reading of the Rust source into
Gallina, and nothing else: `Print Assumptions` of every property theorem is
printed at build time.  Section 6 lists the result.

## 6. Assumptions listing

No axiom is declared in this development.  `Print Assumptions` follows every
property theorem and is printed at build time.  It reports one of:

* "Closed under the global context" for the theorems proved without big-number
  computation (all of Props_Field, the generic tower theorems, ...).
* The primitive 63-bit integers and their specification from the standard
  library (`PrimInt63.*`, `Uint63.*_spec` and similar, root `Coq.Numbers`).
  They enter through the Bignums library, which is used to evaluate primality
  certificates, Frobenius tables, curve constants and generator orders.  They
  appear in every theorem about a concrete curve, because such a theorem uses
  the primality of the base field modulus and the checked curve constants.
* Only in Props_Ln (C66), the axioms of the real numbers of the standard library:
  `ClassicalDedekindReals.sig_not_dec`, `ClassicalDedekindReals.sig_forall_dec`,
  `FunctionalExtensionality.functional_extensionality_dep`, `Classical_Prop.classic`.

## 7. Layers

* Limb layer (Word, Limbs, Field, Bytes): the generated Montgomery code on lists
  of 64-bit words.  The relation `represents n p a x` links limbs to integers.
* Abstract field layer (Algebra, PrimeField, Tower): everything above the base
  field is a function of a record `fops` of field operations.  Theorems hold for
  every record satisfying the field laws; `prime_field p o inj` states that `o`
  is some representation of the integers modulo `p`.
* Inversion (Inverse, InverseFacts, ConvertFacts, Divstep, InvertFacts): the
  62-bit chunk arithmetic of src/ff_ext/inverse.rs with explicit wrap-around, a
  fuelled outer loop whose `Diverged` result is proved unreachable.  LimbField
  then packages canonical limb lists as a `prime_field` record, so every theorem
  about abstract prime fields also holds for the limb code itself.
* Square roots (Sqrt, SqrtFacts) and constants (ConstFacts, GenCerts).
  `sqrt_tonelli_shanks` belongs to the external crate ff 0.13 and is written
  down from its published source; the same holds for `pow`.
* FFT (Fft, FftFacts, FftSched, FftInst, Props_Fft): `best_fft` over abstract
  group and scalar operations; `rayon::current_num_threads()` is a parameter.
  FftSched breaks the butterflies into single statements and lets the two sides
  of every `rayon::join` interleave freely; memory is sequentially consistent.
* Curve layer (Curve): the projective and affine formulas of `new_curve_impl!`,
  line by line, over `fops`.  Specification (SpecCurve): textbook chord and
  tangent law on affine points with a point at infinity.  `crate_curve` in
  CrateCurves.v lists the eleven curves with the literals of the source.
* MSM (Msm, MsmFacts, MsmBest, Props_Msm): Booth recoding on bytes, `msm_serial`,
  `msm_parallel` (chunking for any thread count) and `msm_best` with its schedule and
  batched affine additions.  `(n as f64).ln().ceil()` is a parameter.  An `unwrap` or an
  out-of-range index is `None`.  The proofs work in the group of curve points: bucket
  contents are points, the sum by parts is a weighted sum, and the batch invariant carries the
  inverse of the running product through the backward pass.
* Square roots in Fp2 (Sqrt2, Sqrt2Facts, Props_Sqrt2): Algorithms 9 and 10 of quadratic.rs;
  the self-call of Algorithm 10 is fuelled and its `unwrap`s are explicit panics.
* Encodings (Serde, SerdeFacts, SerdeInst, OrderFacts, SmallOrder, Props_Serde, Props_Panics): byte lists.
  A `CtOption` is an option inside an outcome that may also be a panic or a divergence.  The
  combinators of crate subtle run their closures even when the option is empty, and the model
  does the same, so a panic inside such a closure shows.  `Coordinates` belongs to pasta_curves
  and is written down from its published source.  Point encodings are proved over an abstract
  base-field codec, and the limb-level codecs are instances.  OrderFacts counts curve points:
  at most 2q+1 of them, hence a point of prime order r with 2q+1 < 3r generates everything
  when there is no point of order two.  SmallOrder holds the explicit points of the refutations.
* Scalar decomposition (Endo, EndoFacts, Props_Endo): `decompose_scalar` on limbs with the parameters
  of its five users.  The pasta moduli and `ZETA` are those of the published crate pasta_curves.  The
  size of the parts is a linear consequence of the rounding errors, closed by `lia`.
* Message expansion (Hash, SpecHash, HashFacts, Props_Hash): the hash function is a parameter (function
  plus block and output size).  SpecHash.v transcribes RFC 9380 sections 5.2 and 5.3.1.  Arithmetic
  overflow counts as a panic.
* Maps to the curve (H2cParams, H2c, SpecH2c, H2cFacts, IsoFacts, H2cInst, H2cSuites, H2cSuiteFacts,
  Props_H2c): SpecH2c.v states RFC 9380 6.6.1/6.6.2 as relations without divisions.  The constants of
  the suites are regenerated from the sources; that they meet the side conditions of the maps is
  checked by computation from certificates (square roots and inverses).  An isogeny is accepted by
  comparing coefficients of two polynomial identities, XD^3 = lead(XD) YD^2 and the curve equation; that
  its kernel has no rational point (secp256k1, bls12381 G2) by one power of the root of XD.  The isogeny
  constants of bls12381 G1 carry a common factor R, which cancels in the quotient.
* Pairings (PairingParams, Pairing, PairingFacts, PairingInst, Props_Pairing): Miller loops, final
  exponentiations and target groups of the three engines, over any model of the prime field.  The
  inversion of zero is a panic (`None`).  A phase of the loop "separates" when it acts on the terms one by one;
  separation composes, which gives the product formula.  The final exponentiation is computed in the
  exponent: on the cyclotomic subgroup conjugation, Frobenius and the powers of u act on exponents
  modulo p^4-p^2+1.
* Miller function (SpecPairing, PairingLines, TwistFrob, PairingMiller, Props_Miller): SpecPairing.v is
  Miller's algorithm on affine points of E(Fp12) without vertical lines.  The untwist (x, y) -> (x u^2, y u^3) is a group
  homomorphism.  The line coefficients of the code, evaluated at P, are the textbook line times an element
  killed by (p^6-1)(p^2+1), the easy part of the final exponent.  A computed check on the digit tables (no
  prefix of the loop reaches 0 or +-1 modulo r where a line degenerates) excludes the exceptional cases.  For
  the BN curves the twisted Frobenius is multiplication by p on the subgroup: a homomorphism,
  checked on the generator.
* Cofactors and group orders (Cofactor, CofactorFacts, GroupSum, CurveSum, PointFacts, CofPoints, CofCerts,
  CofGroups, CofGroups2, CofBls2, CofBn2, CofTriton, Props_Cofactor): the `CofactorGroup` implementations; the
  `println!` left in bn256's `exp_by_x` (curve.rs:168) is not modelled.  For the four curves with a cofactor CofPoints.v
  holds points of every prime order dividing the number of points (generated outside Coq, checked inside).  GroupSum
  adds up independent cyclic groups and planes; the sum has r*h elements, and a subgroup of odd exponent with more than
  (2q+1)/3 elements is the whole group.  Planes are recognised by the eigenvalues of an endomorphism.  A homomorphism
  equals multiplication by m as soon as it does on these points, which turns psi formulas into integers.
* Jacobi symbol (SpecJacobi, JacSymFacts, Jacobi, JacobiLint, JacobiInner, JacobiProg, JacobiFacts, JacobiLoop,
  JacobiField, Props_Jacobi): SpecJacobi.v defines the symbol by the Gauss-Schering count.  JacSymFacts derives
  reciprocity (lattice points), both multiplicativities and Euler's criterion.  `LInt` is modelled limb by limb; `lin L a v`
  says the limbs hold v modulo 2^(64L).  The inner loop keeps exact integers N, D next to the approximations, equal modulo
  2^(i+2), and the symbol up to bit 1 of t.  Termination does not need the documented quality of the
  approximations: by the top bit and the order of the two words either the larger number loses a bit or the product loses 29,
  and by a bound on the errors the product gains at most five.  Both loops are cut off at a power of two and proved to end before.  `debug_assert!` is left out here and put back in Debug.v.
* Bilinearity (Divisors, Bilinear, BilinearTower, Props_Bilinear): no function field theory.  Divisors.v works with
  products of lines (chords, tangents, verticals) and the list of their zeros.  Reciprocity (the product of f over the zeros
  of g equals, up to sign, the product of g over the zeros of f) is checked line against line.  First argument: the product of the
  Miller function over three collinear points is computed by reciprocity against their line.  Second argument: products of lines with
  the same zeros agree (their ratio is a character on the multiples of an auxiliary point of prime order l, trivial
  since l does not divide p^12-1; enough values determine a polynomial), which makes chi of the line through A and B at P a symmetric
  cocycle, and the loop is followed on Q, Q' and Q+Q' at once.  The BN tails are Frobenius images; `loop_chk` computes that the loop
  ends in a multiple of the Frobenius map.
* Non-degeneracy (PairingEval, Props_Nondeg): the model's own pairing functions are evaluated on the generators over
  BigZ with inversion by Fermat (checked), and every function on the way commutes with the map to an arbitrary prime field.  The
  value is not 1; its order is then r, and the rest follows from bilinearity, the cyclic groups of C43 and counting roots of x^r - 1.
* Assembly (Asm, AsmFacts, Props_Asm): an interpreter for the sixteen x86-64 instructions of
  `derive/src/field/asm/limb4.rs` and the instruction lists, transcribed by a script from the file.  The meaning of the instructions (Intel SDM,
  with only CF, OF and ZF) and the register allocation of `asm!` are trusted.  A flag that the model does not follow is `None`, and using
  it is an error, so the proofs also show that no instruction depends on one.  `shape` tracks which flags are defined,
  independently of the data.
* Hashing end to end (Sha256, Sha512, HashToCurve, H2cUnique, Props_HashToCurve, Props_HashSign, HashVectors, HashVectors2): the ten `hash_to_curve`
  functions, generic in the base field, instantiated with the limb arrays.  The theorems hold for any hash function with 32-byte output.
  Sha256.v and Sha512.v are written from FIPS 180-4 (crate sha2 is a dependency) and are used only in the two files of vectors, where
  the model reproduces all vectors of `expand_message` and the test vectors of the crate for the message "abc" on secp256k1, P-256
  and both curves of bls12-381 and bn256.
* Sampling (Random, Props_Random): a generator is a state with `fill_bytes` and `next_u32`.  The loop of `random` is cut off at a number
  of rounds given as an argument (`RMore` if they are used up); C53_loop holds for every number.
* Small table and serde (FrTable, Props_Table, SerdeText, Props_SerdeText): the table is the list that script/bn256.py prints; its printing
  and the Rust compiler's reading of it are not modelled.  A serde format is a value: a string for human-readable formats, a tuple of bytes
  for others, a list of fields for the derived struct.  The behaviour of crates hex and serde_arrays is written from their documentation.
* Remaining trait functions (FieldMisc, Props_FieldMisc): `sqrt_ratio` of crate ff is the function copied in hash_to_curve.rs with the root
  of unity as its non-square.
* Debug build (Debug, DebugFacts, DebugJacobi, Props_Debug): the `dev` profile of src/arithmetic.rs, ff_ext/inverse.rs, ff_ext/jacobi.rs and
  `get_booth_index`, where an overflow of `+`, `-`, `*`, a shift by the word size or more and a failed `debug_assert!` are panics.  The generated
  limb code of the fields contains only calls of the four functions of arithmetic.rs and `wrapping_*` operations (read off the text, not modelled a second time).
  Products of `usize` in `get_booth_index` are taken to fit.
* ECDSA (Ecdsa, EcdsaFacts, Props_Ecdsa): the body of `ecdsa_example` in src/tests/curve.rs with its random values as arguments, on limb
  arrays.  `Coordinates::from_xy` of crate pasta_curves is written from its documentation.  The P-256 vector of RFC 6979 is an Example.
* Signatures (Props_Signature): the only definitions here that have no counterpart in the crate are the three lines of a caller (`secret_mul` and the
  two verification equations).
* Texts (Text, Props_Text): a text is the list of its character codes; the derived `Debug` (one line form), `{:02x}` and `to_str_radix(16)` are written from their documentation.
* Commitments (Props_Commit): the caller's code (`srs`, `commit`, `divide`, `shift`, `to_lagrange`, `kzg_check`) has no counterpart in the crate; it only calls modelled functions.
* Scheduling (MsmSched, MsmSchedFacts, Props_Sched): the closures of `rayon::scope` and `par_iter_mut` as state machines, one transition per statement of the loops (a batch addition is one transition); a task reads shared immutable data and writes its own cell.  The pool picks any task at any moment.  `par_iter().map().collect()` is taken as the vector of the values.
* Multiplication of polynomials (Props_Poly): `multiply` is not code of the crate; like the scheme of C62 it is written out from `best_fft`, `fe_mul`, `fe_square` and the constants of the fields.
* Rounds of the inverter (DivstepBound, InvertRounds, Props_Rounds): `by_invert` of Inverse grants its loop 2^(124L+6) rounds, a number that only serves to make the function total; C67 gives the number that is really needed, at most 25 calls of `jump` for the fields of the crate.  Likewise `jacobi` of Jacobi grants 2^(2L+16) rounds and C68 (Props_JacRounds) gives a bound linear in the number of bits.
* Logarithm (Props_Ln): `(f64::from(n as u32)).ln().ceil() as usize` as the ceiling of a real number within 1/100 of the logarithm of n modulo 2^32, and 0 if that is 0 or 1.  The rest of the model keeps it as a parameter with values from 1 to 24.
* Cycles (Props_Cycle): no new model; the curves and the fields are those of CurveParams and Params, and each pair of curves shares its two field configurations as grumpkin and secq256k1 do in the source by re-exporting them.
* Selection (Select, Props_Select): the word operations of the crate subtle are written from its published source; everywhere else in the model a selection is `if` and a comparison is on the limbs, which C63_fields justifies.

## 8. The tests of the crate and the theorems behind them

The tests draw random inputs; the theorems hold for all inputs.  "Vectors" are
Examples that evaluate the model on the inputs of the test.

| test | theorems |
|---|---|
| tests/field/arith.rs: mul, add, sub, neg, double, square, inv, expansion, zero, one | C01, C02, C06 (prime fields), C18, C19, C21 (towers) |
| tests/field/arith.rs: sqrt | C08, C24 (C24_pluto_zero_refuted: the test draws no zero) |
| tests/field/constants.rs: primefield_constants, zeta | C09, C57_constants |
| tests/field/legendre.rs: legendre_symbol, quadratic_residue | C07 |
| tests/field/serde.rs: from_to_repr, from_to_raw_bytes, derive_serde, test_bits, from_uniform_bytes | C04, C13, C55, C11_to_le_bits, C05, C45 |
| tests/field/extensions.rs: f2_ordering, f2_zero_one | C57_cmp, C21 |
| tests/field/extensions.rs: f6_mul_nonresidue, f6_mul_by_1, f6_mul_by_01, f12_mul_by_014, f12_mul_by_034 | C18, C20 |
| tests/field/extensions.rs: frobenius | C22 |
| `test_*_mul_nonresidue` of fq.rs, fq2.rs, fp2.rs, fq6.rs, fp6.rs; pluto_eris/fp2.rs test_fp2_squaring | C18_nonresidue, C18_quad_square |
| tests/curve.rs: is_on_curve, equality, projective_affine_roundtrip, projective_addition, mixed_addition, multiplication, batch_normalize | C25 - C28 |
| tests/curve.rs: serdes, random_serialization, random_serde | C29 - C32, C55 |
| tests/curve.rs: test_hash_to_curve | C36, C52 |
| tests/curve.rs: test_cofactor_clearing; bls12381 test_cofactor | C43 |
| tests/curve.rs: test_endo_consistency, test_endo; pasta test_endo | C34, C35 |
| tests/curve.rs: ecdsa_example | C59 |
| tests/curve.rs: constants | C44, C48 |
| tests/pairing.rs: test_miller_loop_identity, engine_tests | C39, C40, C49 |
| tests/pairing.rs: test_unitary, test_bilinearity | C42, C49 |
| tests/pairing.rs: test_pairing_check | C50 |
| hash_to_curve.rs: test_expand_message | C37; all twenty vectors, HashVectors2.v |
| test_hash_to_curve of secp256k1, secp256r1, bls12381 g1 and g2, bn256 (g1 and g2) | C46, C52; the vector of "abc" of each, HashVectors.v and HashVectors2.v |
| msm.rs: test_booth_encoding, test_msm_cross | C15, C16, C17 |
| bn256/fr/table_tests.rs: test_table | C54 |

## 9. Reading the log of wrong programs

`seeded/LOG.jsonl` has one line for each edit tried in a scratch copy, including edits that were not caught.

* `theorems_failed` starts with the lemmas or examples whose proof stopped with an error.  Then come the theorems of
  the claim that depend on one of them.  These theorems could not be rebuilt; in general their statements were not
  themselves refuted for the edited program.
* So `caught` says that the development no longer builds with the edit.  It does not say that the claim is false for
  the edited program: a helper lemma may fail where the claim would still hold.  Where this is known the note says so.
* `other_claims_affected` lists further claims that depend on a failed lemma, computed from the references between
  the files and not from a rebuild.
* An entry `(timeout in ...)` means that the file ran into a time limit and gave no error.
  Such entries are inconclusive and carry `caught: false`.
* Many edits were generated by a script that changes one operator or constant of a definition; those have the form
  `old -> new`.  The others were chosen by hand.
