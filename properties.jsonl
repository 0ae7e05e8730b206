{"id": "C01", "title": "Field addition, subtraction, negation and doubling are exact modulo p", "statement": "For two canonical elements a, b of any field generated by impl_field!, a+b, a-b, -a and a.double() return canonical elements whose integer values are (a+b) mod p, (a-b) mod p, (-a) mod p and 2a mod p. In particular the result is always fully reduced, also when the modulus uses every bit of the top limb (secp256k1, secp256r1).", "quantifier": "every limb count n>=1, every odd modulus p < 2^(64n), every pair of canonical representations", "why_tests_cant": "A carry or borrow lost between limbs shows up on roughly one input in 2^64; random testing never reaches it.", "anchors": ["derive/src/field/arith.rs:impl_add,impl_double,impl_sub,impl_neg", "src/arithmetic.rs:adc,sbb"]}
{"id": "C02", "title": "Field multiplication and squaring are exact modulo p", "statement": "For canonical a, b, a*b (both the run-time mul and the const mul_const) and a.square() return the canonical element whose value is ab mod p (resp. a^2 mod p); square(a) equals a*a as a representation.", "quantifier": "every limb count, every odd modulus fitting the limbs, every pair of canonical representations", "why_tests_cant": "Montgomery reduction has rare double-carry paths between rounds; a wrong carry is input dependent with negligible probability under random inputs.", "anchors": ["derive/src/field/arith.rs:impl_mul,impl_mul_const,impl_square,impl_mont", "src/arithmetic.rs:mac,macx,adc"]}
{"id": "C03", "title": "Integer conversions into a field are exact", "statement": "from_raw(limbs), from(u64), from_u128(v) and from(bool) yield the canonical element congruent to the given integer modulo p, also when the integer is not smaller than p.", "quantifier": "every limb vector / u64 / u128, every modulus", "why_tests_cant": "Non-reduced inputs (>= p) are outside what the round-trip tests generate, and the bound on the intermediate product must hold for all of them.", "anchors": ["derive/src/field/mod.rs:from_raw,from_u128", "src/derive/field/common.rs:impl_from_u64,impl_from_bool"]}
{"id": "C04", "title": "Canonical byte encoding of field elements", "statement": "to_repr/to_bytes of an element is the fixed-length little (resp. configured) endian encoding of its integer value; from_repr/from_bytes return Some exactly for encodings of integers < p, and then the element with that value; hence decode(encode(a)) = Some(a), and any accepted byte string re-encodes to itself (no malleability).", "quantifier": "every element and every byte string of the right length, both endiannesses", "why_tests_cant": "Rejection at the modulus boundary and injectivity over 2^256 strings cannot be enumerated.", "anchors": ["derive/src/field/mod.rs:from_repr,to_repr,from_bytes,to_bytes,is_less_than_modulus", "src/serde.rs:Endian"]}
{"id": "C05", "title": "from_uniform_bytes reduces the whole byte string", "statement": "from_uniform_bytes(b) is the field element congruent to the little-endian integer of all N bytes, for every supported N (size <= N <= 2*size); Field::random is therefore the reduction of 2*size uniform bytes.", "quantifier": "every byte string of every length N with size <= N <= 2*size, every modulus", "why_tests_cant": "High halves close to 2^(64n) exceed p many times over; the claim is about every value of both halves.", "anchors": ["derive/src/field/mod.rs:impl_from_uniform_bytes,random"]}
{"id": "C06", "title": "Inversion returns the multiplicative inverse or nothing", "statement": "a.invert() is None exactly for a = 0; otherwise it is Some(b) with b canonical and a*b = 1. The computation always terminates.", "quantifier": "every canonical element of every prime field produced by the macro", "why_tests_cant": "The algorithm works on 62-bit windows with signed carries and data-dependent iteration counts; overflow, sign and termination claims range over all inputs.", "anchors": ["src/ff_ext/inverse.rs:BYInverter,CInt", "derive/src/field/mod.rs:invert"]}
{"id": "C07", "title": "Legendre symbol agrees with quadratic residuosity", "statement": "legendre(a) is 0 for a = 0, 1 when a is a non-zero square in the field and -1 otherwise.", "quantifier": "every canonical element of every prime field produced by the macro", "why_tests_cant": "The symbol is computed by an approximate-quotient gcd with sign bookkeeping; errors would hit sparse carry patterns only.", "anchors": ["src/ff_ext/jacobi.rs:jacobi,jacobinary,LInt", "derive/src/field/mod.rs:jacobi", "src/ff_ext/mod.rs:Legendre,extend_field_legendre"]}
{"id": "C08", "title": "Square roots in prime fields", "statement": "a.sqrt() is Some(s) with s*s = a exactly when a is a square in the field, and None otherwise (both the p = 3 mod 4 and the Tonelli-Shanks branch).", "quantifier": "every element of every prime field", "why_tests_cant": "Tests check sampled squares; existence of a root for every residue and rejection of every non-residue is a statement about the whole field.", "anchors": ["derive/src/field/mod.rs:sqrt_impl"]}
{"id": "C09", "title": "Generated field constants satisfy their defining equations", "statement": "For every field in the crate: ONE, TWO_INV, MULTIPLICATIVE_GENERATOR, ROOT_OF_UNITY, ROOT_OF_UNITY_INV, DELTA and ZETA have the algebraic meaning documented by the ff traits (2*TWO_INV=1; ROOT_OF_UNITY has order exactly 2^S; its inverse; DELTA = g^(2^S); ZETA is a primitive cube root of one), and S is the 2-adicity of p-1.", "quantifier": "every field of the crate; derivation rules for every odd modulus", "why_tests_cant": "Order exactly 2^S (not smaller) and non-residuosity of the generator are statements about all exponents.", "anchors": ["derive/src/field/mod.rs:impl_field", "src/bn256/fr.rs", "src/bls12381/fr.rs", "src/pluto_eris/fp.rs"]}
{"id": "C10", "title": "Moduli of all fields are prime", "statement": "Every modulus literal passed to impl_field! is a prime number, so that the generated types are fields.", "quantifier": "the ten moduli of the crate; primality quantifies over all candidate divisors", "why_tests_cant": "Tests cannot establish primality of 254..446-bit numbers.", "anchors": ["src/bn256/fq.rs", "src/bn256/fr.rs", "src/bls12381/fq.rs", "src/bls12381/fr.rs", "src/secp256k1/fp.rs", "src/secp256k1/fq.rs", "src/secp256r1/fp.rs", "src/secp256r1/fq.rs", "src/pluto_eris/fp.rs", "src/pluto_eris/fq.rs"]}
{"id": "C11", "title": "Equality and ordering of field elements match their integer values", "statement": "Two elements compare equal exactly when they are the same residue, and cmp(a,b) is the order of the canonical integers; is_odd is the parity of the canonical integer; to_le_bits lists its binary digits.", "quantifier": "every pair of canonical elements", "why_tests_cant": "Byte-wise comparison from the most significant byte must be right at every position of first difference.", "anchors": ["derive/src/field/mod.rs:ConstantTimeEq,Ord,is_odd", "src/derive/field/common.rs:field_bits"]}
{"id": "C12", "title": "lexicographically_largest selects exactly one of a, -a", "statement": "lexicographically_largest(a) is true exactly when the canonical integer of a is strictly larger than that of -a (as documented), so exactly one of a, -a satisfies it for a != 0.", "quantifier": "every canonical element", "why_tests_cant": "The boundary element (p-1)/2 is a single value out of p; sampling will not find it.", "anchors": ["derive/src/field/mod.rs:lexicographically_largest", "src/derive/field/tower.rs:lexicographically_largest"]}
{"id": "C13", "title": "Raw (Montgomery) serialization of field elements", "statement": "to_raw_bytes/write_raw followed by from_raw_bytes/read_raw returns the same element; the checked readers accept a byte string exactly when it has the right length and encodes limbs below the modulus, so they never produce a non-canonical element.", "quantifier": "every element, every byte string", "why_tests_cant": "The acceptance boundary and totality over arbitrary input streams cannot be enumerated.", "anchors": ["derive/src/field/mod.rs:SerdeObject", "src/serde.rs:SerdeObject"]}
{"id": "C14", "title": "FFT computes the discrete Fourier transform", "statement": "best_fft(a, omega, log_n) replaces a (length 2^log_n) by b with b_i = sum_j a_j omega^(i*j), for field elements or group elements, independently of how many worker threads are available; applying it with omega^-1 and scaling by 1/n restores the input.", "quantifier": "every log_n, every vector, every omega with omega^n=1 and omega^(n/2)=-1, every number of threads (recursive and iterative code path), any interleaving of the independent halves", "why_tests_cant": "Tests compare sizes up to about 2^19 on one machine with one thread count.", "anchors": ["src/fft.rs:best_fft,recursive_butterfly_arithmetic"]}
{"id": "C15", "title": "Booth recoding represents the scalar", "statement": "The signed window digits used by the MSM satisfy k = sum_i digit_i * 2^(c*i) for every scalar and every window width c, and each digit lies in [-2^(c-1), 2^(c-1)].", "quantifier": "every scalar byte string below 2^(8*len-1) and every window size c used", "why_tests_cant": "Window boundaries straddle bytes in c- and index-dependent ways; each combination must hold for all scalars.", "anchors": ["src/msm.rs:get_booth_index"]}
{"id": "C16", "title": "Serial and parallel multi-scalar multiplication compute sum k_i P_i", "statement": "msm_serial adds sum_i k_i*P_i to a zero accumulator, and msm_parallel returns sum_i k_i*P_i, for vectors of equal length, including zero scalars, identity points and repeated points, for every number of threads.", "quantifier": "every pair of coefficient/point vectors, every window size selection, every thread count", "why_tests_cant": "Bucket collisions and window choices depend on vector length and all scalars.", "anchors": ["src/msm.rs:msm_serial,msm_parallel"]}
{"id": "C17", "title": "Batched-affine MSM computes sum k_i P_i", "statement": "msm_best returns sum_i k_i*P_i for every vector of scalars and curve points.", "quantifier": "every pair of vectors (any length), in particular repeated points, opposite points, zero scalars and identity points; every order in which windows are processed in parallel", "why_tests_cant": "The batch scheduler inverts denominators collectively: one zero denominator corrupts a whole batch; which points collide depends on the data.", "anchors": ["src/msm.rs:msm_best,Schedule,batch_add,Bucket"]}
{"id": "C18", "title": "Tower arithmetic is the arithmetic of the quotient ring", "statement": "Multiplication, squaring, doubling, negation and mul_by_nonresidue in Fp2, Fp6, Fp12 (generic and specialised variants) equal the schoolbook operations in Base[u]/(u^2-beta), Base[v]/(v^3-xi), Base[w]/(w^2-v).", "quantifier": "every pair of elements, every base field and non-residue", "why_tests_cant": "Polynomial identities over a field of 2^762.. elements; Karatsuba/Toom sign slips can cancel on structured tests.", "anchors": ["src/ff_ext/quadratic.rs:QuadExtFieldArith", "src/ff_ext/cubic.rs:CubicExtFieldArith", "src/bn256/fq2.rs", "src/bls12381/fq2.rs"]}
{"id": "C19", "title": "Tower inversion", "statement": "invert in Fp2, Fp6, Fp12 returns None exactly for zero and otherwise the multiplicative inverse.", "quantifier": "every element of each tower level, for every quadratic/cubic non-residue", "why_tests_cant": "Requires that the norm of a non-zero element never vanishes, a statement about all elements.", "anchors": ["src/ff_ext/quadratic.rs:invert,norm", "src/ff_ext/cubic.rs:invert"]}
{"id": "C20", "title": "Sparse multiplications equal full multiplications", "statement": "mul_by_014, mul_by_034 (Fp12) and mul_by_1, mul_by_01 (Fp6) equal multiplication by the corresponding sparse element.", "quantifier": "every element and every sparse operand", "why_tests_cant": "Same as C18: polynomial identities over large fields.", "anchors": ["src/ff_ext/quadratic.rs:QuadSparseMul", "src/ff_ext/cubic.rs:CubicSparseMul"]}
{"id": "C21", "title": "is_zero on extension fields is exact", "statement": "is_zero(x) on Fp2/Fp6/Fp12 is true exactly when every coefficient of x is zero.", "quantifier": "every element", "why_tests_cant": "Elements with a single non-zero coefficient are never hit by random sampling.", "anchors": ["src/ff_ext/cubic.rs:is_zero", "src/ff_ext/quadratic.rs:is_zero"]}
{"id": "C22", "title": "Frobenius map is exponentiation by p^k", "statement": "frobenius_map(k) on Fp2, Fp6 and Fp12 equals x -> x^(p^k) for every k, for the tables of bn256, bls12-381 and pluto.", "quantifier": "every element and every power k", "why_tests_cant": "Tests sample elements; equality of maps over the field for all k needs the algebraic argument.", "anchors": ["src/bn256/fq6.rs:frobenius_map", "src/bn256/fq12.rs:frobenius_map", "src/bls12381/fq6.rs", "src/bls12381/fq12.rs", "src/pluto_eris/fp6.rs", "src/pluto_eris/fp12.rs"]}
{"id": "C23", "title": "Cyclotomic squaring equals squaring in the cyclotomic subgroup", "statement": "For every element f of Fp12 satisfying the cyclotomic relation f^(p^4-p^2+1)=1 (the image of the easy part of the final exponentiation), cyclotomic_square(f) = f*f.", "quantifier": "every element of the cyclotomic subgroup", "why_tests_cant": "The formula is wrong outside the subgroup, so only an argument covering the entire subgroup settles it.", "anchors": ["src/derive/field/tower.rs:impl_cyclotomic_square"]}
{"id": "C24", "title": "Square roots in quadratic extensions", "statement": "sqrt in Fp2 returns Some(s) with s^2 = a exactly when a is a square in Fp2, None otherwise (Algorithm 9 for q = 3 mod 4, Algorithm 10 for q = 1 mod 4).", "quantifier": "every element of Fp2", "why_tests_cant": "Completeness (every square has its root found) is a statement about all squares, including those with zero coefficients.", "anchors": ["src/ff_ext/quadratic.rs:sqrt_algo9,sqrt_algo10"]}
{"id": "C25", "title": "Point addition is the elliptic-curve group law without exceptions", "statement": "For any two points on the curve in homogeneous projective coordinates (including identity, equal and opposite points), add, mixed add with an affine point, double, sub and neg return a point on the curve representing the sum given by the textbook chord-and-tangent law; the result never is the invalid triple (0,0,0).", "quantifier": "every pair of points, every representative, for the a=0 and the general-a formulas, for every curve of the crate", "why_tests_cant": "Completeness means no exceptional pair exists among ~2^512 pairs.", "anchors": ["src/derive/curve.rs:Add,Sub,Neg,double"]}
{"id": "C26", "title": "Group axioms", "statement": "Point addition is commutative and associative, identity is neutral and P + (-P) is the identity, up to the library equality on points.", "quantifier": "every triple of points on the curve", "why_tests_cant": "Universally quantified algebraic law.", "anchors": ["src/derive/curve.rs:Add,Neg,ct_eq"]}
{"id": "C27", "title": "Scalar multiplication", "statement": "P * k (projective and affine operands) equals the k-fold sum of P for the canonical integer value of the scalar k.", "quantifier": "every point and every scalar", "why_tests_cant": "Double-and-add must be right for each of 2^256 scalars.", "anchors": ["src/derive/curve.rs:Mul"]}
{"id": "C28", "title": "Equality and coordinate conversion of points", "statement": "Projective equality holds exactly when both are the identity or have the same affine coordinates; to_affine then to_curve returns an equal point; batch_normalize produces for each input exactly to_affine of that input, including when some inputs are the identity; is_on_curve is true exactly for representatives of curve points.", "quantifier": "every point / every vector of points", "why_tests_cant": "The batch shares one inversion across all inputs; correctness must hold for every pattern of identities.", "anchors": ["src/derive/curve.rs:ct_eq,to_affine,batch_normalize,is_on_curve"]}
{"id": "C29", "title": "Compressed point encoding round-trips", "statement": "from_bytes(to_bytes(P)) = Some(P) for every curve point P (affine and projective), for each of the flag layouts used by the curves.", "quantifier": "every point of every curve", "why_tests_cant": "Points with exceptional coordinates (x = 0, y at a sign boundary, y with a zero coefficient) are single points among 2^256.", "anchors": ["src/serde.rs:Compressed", "src/derive/curve.rs:GroupEncoding", "src/bls12381/g1.rs:Compressed", "src/bls12381/g2.rs:Compressed"]}
{"id": "C30", "title": "Compressed decoding only yields valid points and is canonical", "statement": "If from_bytes(b) = Some(P) then P is on the curve and to_bytes(P) = b; malformed strings (x >= p, x not on the curve, wrong flag combinations) give None and never a panic.", "quantifier": "every byte string of the encoding length", "why_tests_cant": "All 2^264 byte strings.", "anchors": ["src/serde.rs:Compressed::decode", "src/derive/curve.rs:GroupEncoding", "src/derive/field/tower.rs:from_bytes"]}
{"id": "C31", "title": "Uncompressed encoding", "statement": "from_uncompressed(to_uncompressed(P)) = Some(P); from_uncompressed accepts exactly the encodings of curve points or the identity; malformed strings give None and never a panic.", "quantifier": "every point, every byte string", "why_tests_cant": "As above.", "anchors": ["src/derive/curve.rs:UncompressedEncoding"]}
{"id": "C32", "title": "Raw point serialization is safe on the checked path", "statement": "from_raw_bytes and read_raw of curve points (the readers not marked unchecked) accept only representations of curve points, round-trip with to_raw_bytes/write_raw, and whatever they accept behaves as a group element (adding it to P gives a sum).", "quantifier": "every byte string / reader content", "why_tests_cant": "Adversarial byte strings are not produced by round-trip tests.", "anchors": ["src/derive/curve.rs:SerdeObject"]}
{"id": "C33", "title": "Decoded points lie in the prime-order group", "statement": "A point accepted by the checked decoder from_bytes is a member of the prime-order group the type represents (order equals the scalar field modulus).", "quantifier": "every accepted byte string, for each curve type", "why_tests_cant": "Requires knowing about all curve points, not sampled ones.", "anchors": ["src/derive/curve.rs:GroupEncoding", "src/bls12381/g1.rs", "src/bls12381/g2.rs", "src/bn256/curve.rs"]}
{"id": "C34", "title": "Endomorphism scalar decomposition", "statement": "decompose_scalar(k) = (|k1|, s1, |k2|, s2) satisfies k = k1 - zeta*k2 mod r for the signs given, and both magnitudes fit in 128 bits, so nothing is truncated.", "quantifier": "every scalar k, for bn256, grumpkin, bls12-381 and both pasta curves", "why_tests_cant": "Truncation to 128 bits could lose a bit for rare k; tests sample 10^5 scalars.", "anchors": ["src/derive/curve.rs:endo", "src/arithmetic.rs:mul_512,CurveEndo"]}
{"id": "C35", "title": "Curve endomorphism", "statement": "endo(P) maps curve points to curve points, is additive, and multiplying the generator by the scalar ZETA equals its endo, hence endo(P) = ZETA*P on the whole subgroup generated by the generator.", "quantifier": "every point of the generated subgroup", "why_tests_cant": "Universally quantified over points.", "anchors": ["src/derive/curve.rs:endo"]}
{"id": "C36", "title": "hash_to_curve always returns a point on the curve", "statement": "For every message and domain, map_to_curve (SVDW or SSWU+isogeny) yields a point on the curve with non-zero or identity-consistent coordinates, so the hash is total and on-curve; no panic in an inversion or square root.", "quantifier": "every field element u, for every curve with a hash suite, for any hash function", "why_tests_cant": "Exceptional u values (roots of a denominator) occur with probability 2^-250.", "anchors": ["src/hash_to_curve.rs:svdw_map_to_curve,sswu_map_to_curve,hash_to_curve"]}
{"id": "C37", "title": "expand_message / hash_to_field follow RFC 9380", "statement": "expand_message returns exactly the requested number of bytes equal to the RFC 9380 expand_message_xmd construction for the given hash, DST and message, and hash_to_field yields canonical field elements from big-endian chunks.", "quantifier": "every message, DST up to 255 bytes, every supported output length, every hash function with given block and output size", "why_tests_cant": "Structural over arbitrary message lengths.", "anchors": ["src/hash_to_curve.rs:expand_message,hash_to_field"]}
{"id": "C38", "title": "Isogeny maps land on the target curve", "statement": "iso_map for secp256k1, bls12-381 G1 and bls12-381 G2 sends every point of the isogenous curve (in projective coordinates) to a point of the target curve.", "quantifier": "every point of the source curve", "why_tests_cant": "Polynomial identity with 256/381-bit coefficients; single wrong limb in one of 47 constants changes it.", "anchors": ["src/secp256k1/curve.rs:iso_map", "src/bls12381/g1.rs:iso_map", "src/bls12381/g2.rs:iso_map"]}
{"id": "C39", "title": "multi_miller_loop is the product of the individual Miller loops", "statement": "multi_miller_loop(terms) equals the product over the terms of the single-term loop; terms with an identity component contribute one; the order of the terms is irrelevant.", "quantifier": "every list of point pairs (any length), for bn256, bls12-381 and pluto", "why_tests_cant": "Tests use a handful of pairs.", "anchors": ["src/bn256/engine.rs:multi_miller_loop", "src/bls12381/engine.rs", "src/pluto_eris/engine.rs"]}
{"id": "C40", "title": "Final exponentiation raises to the documented exponent", "statement": "final_exponentiation(f) for f != 0 equals f^(e) where e is a fixed multiple of (p^12-1)/r not divisible by r, hence the result always lies in the order-r subgroup and the map is multiplicative; zero input panics and nothing else does.", "quantifier": "every non-zero element of Fp12", "why_tests_cant": "The addition chain mixes Frobenius, conjugation and powers of u; a wrong step is caught by bilinearity tests only for sampled points.", "anchors": ["src/bn256/engine.rs:final_exponentiation", "src/bls12381/engine.rs", "src/pluto_eris/engine.rs"]}
{"id": "C41", "title": "Miller loop line functions track the point arithmetic", "statement": "The doubling and addition steps inside the Miller loop update the running G2 point to exactly 2R and R+Q, and the digit tables (NAF / bit arrays) denote 6u+2, resp. |x|.", "quantifier": "every point R (and Q), every term list", "why_tests_cant": "Polynomial identities over Fp2.", "anchors": ["src/derive/pairing.rs:double,add", "src/bn256/mod.rs:SIX_U_PLUS_2_NAF", "src/bls12381/mod.rs:BLS_X", "src/pluto_eris/engine.rs:NEG_SIX_U_PLUS_2_NAF"]}
{"id": "C42", "title": "Target group operations", "statement": "Gt addition, subtraction, negation and scalar multiplication implement the group structure of the order-r subgroup of Fp12* written additively.", "quantifier": "every element in the cyclotomic subgroup and every scalar", "why_tests_cant": "Negation is conjugation, valid only in the subgroup; the scalar loop drops the top bit of the representation.", "anchors": ["src/derive/pairing.rs:impl_gt"]}
{"id": "C43", "title": "Cofactor clearing and torsion checks", "statement": "clear_cofactor is a group homomorphism that multiplies by a fixed integer, and is_torsion_free accepts every multiple of the generator; into_subgroup succeeds only for points of the subgroup.", "quantifier": "every curve point", "why_tests_cant": "Universally quantified over the curve.", "anchors": ["src/bn256/curve.rs:CofactorGroup", "src/bls12381/g1.rs:CofactorGroup", "src/bls12381/g2.rs:CofactorGroup", "src/pluto_eris/curve.rs:CofactorGroup"]}
{"id": "C44", "title": "Curve constants", "statement": "Every generator literal is on its curve and, multiplied by the scalar field modulus, gives the identity; the curve equation has non-zero discriminant.", "quantifier": "every curve of the crate; order statement quantifies over all smaller multiples because the modulus is prime", "why_tests_cant": "Tests check a weaker combination; exact order needs primality.", "anchors": ["src/bn256/curve.rs", "src/bls12381/g1.rs", "src/bls12381/g2.rs", "src/secp256k1/curve.rs", "src/secp256r1/curve.rs", "src/secq256k1/curve.rs", "src/grumpkin/curve.rs", "src/pluto_eris/curve.rs"]}
{"id": "C45", "title": "Extension field byte encodings", "statement": "Fp2 to_bytes/from_bytes, to_repr/from_repr and from_uniform_bytes: round-trip, rejection (None, not a panic) of non-canonical coefficients, and reduction of each half.", "quantifier": "every element, every byte string", "why_tests_cant": "Rejection of malformed strings is about all of them.", "anchors": ["src/derive/field/tower.rs:impl_tower2"]}
{"id": "C46", "title": "The maps to the curve are those of RFC 9380", "statement": "For every field element u, map_to_curve returns the point that RFC 9380 section 6.6.1 (Shallue-van de Woestijne) or 6.6.2 (simplified SWU) assigns to u: the first candidate abscissa with a square right-hand side, and the root whose sign is that of u.", "quantifier": "every field element u, every suite, including the exceptional u (tv = 0)", "why_tests_cant": "Which of the two or three candidates is taken depends on quadratic residuosity; exceptional u are never hit by chance.", "anchors": ["src/hash_to_curve.rs:svdw_map_to_curve,sswu_map_to_curve,sqrt_ratio,svdw_precomputed_constants"]}
{"id": "C47", "title": "The pairings are the optimal ate pairing", "statement": "For P on G1 and Q in the order-r subgroup of G2, pairing(P, Q) does not panic and equals the value at P of the function computed by Miller's algorithm on the untwisted point Q in E(Fp12) (for the BN curves with the two further lines through pi(Q) and pi^2(Q)), raised to (p^12-1)/r (bls12-381: inverse of that value, exponent 3(p^12-1)/r).", "quantifier": "every point P of G1 and every point Q of the order-r subgroup of G2, for bn256, bls12-381 and pluto", "why_tests_cant": "Tests compare bilinearity on a few random points; they do not compare with the definition, and a pairing on a wrong Miller function can pass bilinearity tests.", "anchors": ["src/derive/pairing.rs:impl_miller_loop_components", "src/bn256/engine.rs:multi_miller_loop", "src/bls12381/engine.rs:multi_miller_loop", "src/pluto_eris/engine.rs:multi_miller_loop"]}
{"id": "C48", "title": "Exact group orders", "statement": "Each curve has exactly r*h points, the identity included, where r is the modulus of its scalar field and h the cofactor: h = 1 for bn256 G1, grumpkin, secp256k1, secq256k1, secp256r1, pluto and eris; h = 0x396c8c005555e1568c00aaab0000aaab for bls12-381 G1; the published 507-bit h2 for bls12-381 G2; h = 2p - r for bn256 G2 and triton.", "quantifier": "each of the eleven curve types, over any representation of its base field", "why_tests_cant": "The number of points cannot be enumerated; tests only check that r kills the generator and sampled points.", "anchors": ["src/bn256/curve.rs:new_curve_impl", "src/bls12381/g1.rs:new_curve_impl", "src/bls12381/g2.rs:new_curve_impl", "src/pluto_eris/curve.rs:new_curve_impl", "src/grumpkin/curve.rs", "src/secp256k1/curve.rs", "src/secq256k1/curve.rs", "src/secp256r1/curve.rs"]}
{"id": "C49", "title": "The pairings are bilinear", "statement": "For every P, P' in E(Fp) and Q, Q' in the order-r subgroup of G2 (identities included), pairing never panics, its value x satisfies x^r = 1, pairing(P+P', Q) = pairing(P, Q) * pairing(P', Q), pairing(P, Q+Q') = pairing(P, Q) * pairing(P, Q'), and pairing([m]P, [n]Q) = pairing(P, Q)^(mn mod r) for all integers m, n.", "quantifier": "all points P, P' of the curve over Fp, all Q, Q' of order dividing r on the twist, all integers m and n, for bn256, bls12-381 and pluto, over any representation of the base field", "why_tests_cant": "Tests check the identity e(aP, bQ) = e(P, Q)^(ab) for a few random scalars; bilinearity on all pairs of points is a statement about divisors of functions on the curve.", "anchors": ["src/derive/pairing.rs:impl_miller_loop_components", "src/bn256/engine.rs:multi_miller_loop", "src/bls12381/engine.rs:multi_miller_loop", "src/pluto_eris/engine.rs:multi_miller_loop", "src/bn256/engine.rs:final_exponentiation"]}
{"id": "C50", "title": "The pairings are non-degenerate, and pairing-product checks are exact", "statement": "For P and Q of order dividing r, pairing(P, Q) = 1 if and only if P or Q is the identity. Every x in Fp12 with x^r = 1 is the pairing of some multiple of the G1 generator with the G2 generator. For terms ([m_i]g1, [n_i]g2), final_exponentiation(multi_miller_loop(terms)) = pairing(g1, g2)^(sum m_i n_i mod r), and it is the identity of Gt if and only if r divides sum m_i n_i.", "quantifier": "all points of order dividing r on both curves; all lists of pairs of integers (any length); bn256, bls12-381 and pluto, over any representation of the base field", "why_tests_cant": "Tests sample a few scalars; soundness of a pairing check says that no false relation is accepted, over all 2^255 scalars and all list lengths.", "anchors": ["src/derive/pairing.rs", "src/bn256/engine.rs:multi_miller_loop", "src/bls12381/engine.rs:multi_miller_loop", "src/pluto_eris/engine.rs:multi_miller_loop", "src/bn256/engine.rs:final_exponentiation"]}
{"id": "C51", "title": "The inline assembly computes the same limbs as the portable field code", "statement": "With feature asm, for a modulus of four limbs and fewer than 256 bits, the blocks for add, sub, neg, double, mul, square and from_mont return, for reduced operands, exactly the limbs of the portable functions (for mul the second operand may be any four words), whatever registers and flags contain on entry, without reading outside the arrays or using an undefined flag. from_bytes, from_repr, to_bytes, to_repr, From<u64>, from_u128 and from_uniform_bytes therefore give the same results on every input.", "quantifier": "all odd moduli of four limbs below 2^255, all reduced operands, all initial register and flag contents; all byte strings and integers for the conversions", "why_tests_cant": "The feature is off by default, and carry chains over two flags fail only for rare limb patterns out of 2^512 operand pairs.", "anchors": ["derive/src/field/asm/limb4.rs:impl_arith", "derive/src/field/mod.rs:impl_field"]}
{"id": "C52", "title": "hash_to_curve is the random-oracle encoding of RFC 9380, from message bytes to point", "statement": "For every hash function with 32-byte output and every message and domain prefix with a tag of at most 255 bytes, hash_to_curve returns, without panicking, projective coordinates of h_eff * (map(u0) + map(u1)), where u0, u1 are the two elements RFC 9380 derives from the message with expand_message_xmd and map is the SVDW or simplified SWU map (with isogeny) of the suite. The result lies in the group of the generator and is killed by r. The relation u -> map(u) determines the point. A tag of more than 255 bytes is a panic.", "quantifier": "all hash functions with 32-byte output, all messages and prefixes, over the crate's limb arrays, for the ten curves that implement the function", "why_tests_cant": "Tests compare five messages per suite with published vectors; the branches depend on quadratic residuosity of hash outputs, and the rare field elements (exceptional u, kernel points, zero first coefficients) are never reached by hashing test messages.", "anchors": ["src/hash_to_curve.rs:Suite", "src/secp256k1/curve.rs:hash_to_curve", "src/secp256r1/curve.rs:hash_to_curve", "src/bn256/curve.rs:hash_to_curve", "src/grumpkin/curve.rs:hash_to_curve", "src/secq256k1/curve.rs:hash_to_curve", "src/pluto_eris/curve.rs:hash_to_curve", "src/bls12381/g1.rs:hash_to_curve", "src/bls12381/g2.rs:hash_to_curve"]}
{"id": "C53", "title": "random samples field elements almost uniformly and points of the group from the first suitable draw", "statement": "Field::random is the next 2*SIZE bytes of the generator modulo p, so every element is the image of N/p (rounded down) or one more of the N = 256^(2*SIZE) strings. A round of CurveAffine::random gives up exactly if the drawn x is the abscissa of no point; otherwise the result is the cofactor multiplier times a point (x, y) whose sign is the drawn bit, it lies in the group of the generator, and the other bit gives the opposite point. Every non-identity element of the group is the result of some draw, of exactly one on the curves of prime order. The loop returns the first suitable draw and never panics. Gt::random panics only if the drawn field element is 0 and otherwise returns an element of the group of order r; every element of the group can result.", "quantifier": "all generators (state machines), all seven base fields and eleven curves over the crate's limb arrays, both pairing engines", "why_tests_cant": "Tests look at some outputs of one generator. That no x is wrongly rejected, that both signs occur, and the bias bound are statements about all draws.", "anchors": ["derive/src/field/mod.rs:random", "src/derive/curve.rs:random", "src/derive/pairing.rs:random", "src/ff_ext/quadratic.rs:random", "src/ff_ext/cubic.rs:random"]}
{"id": "C54", "title": "The precomputed table of bn256 scalars gives the same elements as the multiplication", "statement": "The generated table has 65536 entries and entry i is the reduced Montgomery form of i. With feature bn256-table Fr::from(v) returns, for every u64 v, the same limbs as without it and never panics, with portable and with assembly multiplication.", "quantifier": "all v < 2^64", "why_tests_cant": "The crate's table_tests compares Fr::from(i) with the table entry, but with the feature on Fr::from(i) is that table entry, so the test cannot fail.", "anchors": ["script/bn256.py", "src/bn256/fr.rs:From<u64>", "build.rs"]}
{"id": "C55", "title": "serde serialisation of field elements and points", "statement": "Deserialising what was serialised returns the same element, as text and as bytes, for the fields, the quadratic extensions and the points whose compressed encoding round-trips (C29). A field value is accepted exactly if it spells SIZE bytes of an integer below p; the element is that integer. A point is accepted only if it is on the curve and the value spells its compressed encoding, and deserialisation never panics, on the eight curves over prime fields.", "quantifier": "all elements, points and serialised values, both kinds of formats, all fields and curves over the limb arrays", "why_tests_cant": "Tests serialise random elements. Rejection of every other value, and the answers to malformed values, range over all strings.", "anchors": ["src/derive/field/common.rs:serialize_deserialize_primefield", "src/derive/curve.rs:serialize_deserialize_to_from_bytes", "src/ff_ext/quadratic.rs:QuadExtField"]}
{"id": "C56", "title": "sqrt_ratio and sqrt_alt of the prime fields meet the contract of trait Field", "statement": "sqrt_ratio(num, div) returns (true, sqrt(num/div)) if num/div is a square, (true, 0) if num = 0, (false, 0) if div = 0 and num is not, and (false, sqrt(ROOT_OF_UNITY * num/div)) otherwise; it never panics (ROOT_OF_UNITY is a non-square, so the internal assertion holds). sqrt_alt(x) is the same with div = 1.", "quantifier": "all num and div, all ten prime fields", "why_tests_cant": "The internal assertion is about all pairs; the cases with a zero operand are single points that random tests do not reach.", "anchors": ["derive/src/field/mod.rs:sqrt_ratio", "src/hash_to_curve.rs:sqrt_ratio"]}
{"id": "C57", "title": "Ordering, conversions and constants of the quadratic extensions", "statement": "cmp on Fp2 is the order of the integers c1*p + c0, equal exactly on equal elements; lexicographically_largest says that an element is greater than its negation in that order; from(u64), TWO_INV, ZETA, ROOT_OF_UNITY(_INV), DELTA have their arithmetic meaning; ROOT_OF_UNITY has the order 2^S and char_le_bits are the bits of the modulus.", "quantifier": "all elements; all fields of the crate", "why_tests_cant": "Tests compare constants and a few random elements; the exception of lexicographically_largest at (p-1)/2 is never drawn.", "anchors": ["src/derive/field/tower.rs:impl_tower2", "src/derive/field/common.rs:char_le_bits"]}
{"id": "C58", "title": "The build with overflow checks and debug assertions does not panic and agrees with the release build", "statement": "adc, sbb, mac and macx of arithmetic.rs, the Bernstein-Yang inverter (every +, -, *, shift and negation on i64, u64, u128 and i128), the Jacobi symbol (with its five debug assertions) and get_booth_index never overflow, and so return the same value in a debug and in a release build; the unused CInt subtraction and multiplication are exact modulo 2^(62L).", "quantifier": "all words; all odd moduli and all values that fit the chosen number of chunks or limbs; all elements of the ten fields; all window sizes up to 30, all scalars", "why_tests_cant": "An intermediate overflow of an i64 or u128 accumulator needs extreme matrix entries that random inputs reach with negligible probability.", "anchors": ["src/arithmetic.rs:adc", "src/ff_ext/inverse.rs:jump", "src/ff_ext/inverse.rs:invert", "src/ff_ext/jacobi.rs:jacobi", "src/msm.rs:get_booth_index"]}
{"id": "C59", "title": "The ECDSA round trip of the test suite holds for all keys, nonces and messages", "statement": "The ECDSA routine by which the crate tests secp256k1 and secp256r1 (sign, then verify) computes the signature of FIPS 186 and accepts every signature it makes; for r <> 0 its verifier accepts exactly what FIPS 186 accepts; (r, s) and (r, -s) are treated alike.  Panics happen exactly for the nonce 0 and for s = 0.  coordinates() returns nothing for the identity, so that r = 0 is never accepted (refuted: it returns (0, 0)).", "quantifier": "all secret keys, nonces, message hashes and signatures as scalar limb arrays; all public keys on the curve", "why_tests_cant": "The test runs a few random triples; it never tries forged signatures, the identity, or values r, s at the edge of the range.", "anchors": ["src/tests/curve.rs:ecdsa_example", "src/derive/curve.rs:coordinates"]}
{"id": "C60", "title": "Hashing, scalar multiplication and pairing compose to a signature scheme with unique signatures", "statement": "With H = hash_to_curve(msg), pk = [sk] g and sig = [sk] H computed by the functions of the crate, pairing(s, g2) = pairing(H, pk) (or its mirror image with signatures in G2) holds for s = sig and for no other element of the group; and the equation alone rejects every other point that the decoders accept (refuted for bls12-381 G1: adding the point (0, 2) of order 3 to a signature gives another one).", "quantifier": "bn256 (both groups), bls12-381 (both groups), pluto; all hash functions with 32-byte output, prefixes, messages, secret keys and candidate signatures", "why_tests_cant": "Uniqueness is about every group element and every message; the tests check bilinearity on random points of the subgroup only.", "anchors": ["src/hash_to_curve.rs:hash_to_curve", "src/bn256/engine.rs:pairing", "src/bls12381/engine.rs:pairing", "src/pluto_eris/engine.rs:pairing", "src/derive/curve.rs:to_affine"]}
{"id": "C61", "title": "Debug texts of field elements and points denote them, and MODULUS spells the modulus", "statement": "The Debug text of a field element is 0x followed by the base-16 numeral, in lower case and two digits per byte, of its integer value, so that texts are ordered like the values; MODULUS is 0x and the numeral of the modulus without leading zeros; the texts of tower elements, target group elements and affine points determine them, and exactly the identity prints as Infinity; the text of a projective point determines its coordinates, so that every projective point other than the identity has an equal point with another text.", "quantifier": "all odd moduli, all elements, all points over the field and its quadratic extension", "why_tests_cant": "The tests never look at the texts; a wrong digit, byte order or padding shows only for particular values.", "anchors": ["derive/src/field/mod.rs:impl_field", "src/derive/curve.rs:new_curve_impl", "src/ff_ext/quadratic.rs:QuadExtField", "src/ff_ext/cubic.rs:CubicExtField", "src/derive/pairing.rs:impl_gt"]}
{"id": "C62", "title": "Multi-scalar multiplication, Fourier transform and pairing compose to a polynomial commitment scheme", "statement": "With the reference string [1]g, [s]g, [s^2]g, ... made by scalar multiplication and batch_normalize, msm_best commits to p by [p(s)]g; the quotient of p by X - z computed with the field operations gives a proof that the pairing check accepts for the value p(z) and for no other; for every candidate proof in the group the check holds exactly when [p(s) - y]g = [s - z]W; and committing to the values of p on the group of roots of unity, with the inverse Fourier transform of the reference string over points, gives the same point as committing to the coefficients.", "quantifier": "bn256, bls12-381, pluto for the pairing check, all curves for the change of basis; all polynomials of any length, secrets other than 0, points, values, candidate proofs and numbers of threads", "why_tests_cant": "No test of the crate composes these functions; the equivalence of the check with the right value ranges over all polynomials, points and group elements.", "anchors": ["src/msm.rs:msm_best", "src/msm.rs:msm_parallel", "src/fft.rs:best_fft", "src/derive/curve.rs:batch_normalize", "src/bn256/engine.rs:pairing", "src/bls12381/engine.rs:pairing", "src/pluto_eris/engine.rs:pairing"]}
{"id": "C63", "title": "The branch-free selection and comparison functions select and compare", "statement": "conditional_select(a, b, choice) is b if the choice is set and a otherwise, and ct_eq holds exactly for equal values, for limb arrays (canonical or not), the extensions of degree 2, 6 and 12, the target groups, and affine and projective points over the prime field and its quadratic extension; on canonical field elements ct_eq is equality of the integers.", "quantifier": "all arrays of any number of 64-bit words, all choices; all fields, towers and point types of the crate", "why_tests_cant": "A wrong mask, or a component taken from the wrong argument, shows only for particular words or only in one component; the tests compare a few random elements.", "anchors": ["derive/src/field/mod.rs:impl_field", "src/ff_ext/quadratic.rs:conditional_select", "src/ff_ext/cubic.rs:conditional_select", "src/derive/curve.rs:conditional_select", "src/derive/pairing.rs:ct_eq"]}
{"id": "C64", "title": "The curves pair up into cycles and have the stated embedding degrees", "statement": "bn256/grumpkin, secp256k1/secq256k1 and pluto/eris are cycles: each curve has exactly as many points as the partner's base field has elements. A base-field element of the partner, used as a scalar without conversion, multiplies points by its integer value, and every point is the multiple of the generator by exactly one such element. The order of p modulo r is exactly 12 for bn256, bls12-381 and pluto; it exceeds 100 for grumpkin, secp256k1, secq256k1, secp256r1 and eris, and none of these has as many points as its field has elements.", "quantifier": "all six curves of the cycles, all points, all field elements; all exponents", "why_tests_cant": "The number of points of a curve and the multiplicative order of a 256-bit or 446-bit number are not observable by running the code.", "anchors": ["src/pluto_eris/mod.rs:half-pairing cycle", "src/grumpkin/mod.rs:re-exports of Fq and Fr", "src/secq256k1/mod.rs:re-exports", "src/pluto_eris/engine.rs:FINAL_EXP"]}
{"id": "C65", "title": "Multi-scalar multiplication does not depend on the scheduling of its tasks", "statement": "msm_parallel and msm_best, run statement by statement with the tasks handed to the thread pool interleaved in any way, have exactly one outcome: the value (the same projective coordinates) or the panic of the sequential reading of the code; if some task panics the function panics, whatever the other tasks have done by then; no run goes on forever. On the curves of the crate the outcome of every run is the sum of the multiples.", "quantifier": "all field operations and curves, all numbers of threads, all lists of scalars and bases (also of different lengths), all interleavings", "why_tests_cant": "A test sees one interleaving per run, and races show only under particular timings.", "anchors": ["src/msm.rs:msm_parallel", "src/msm.rs:msm_best"]}
{"id": "C66", "title": "The window size of the multi-scalar multiplication, computed by a floating point logarithm, is in range for fewer than 2^32 bases and only then", "statement": "If the floating point logarithm is within 1/100 of the real one, the window size for 3 to 2^32-1 bases is between 1 and 24, so msm_serial and msm_parallel return the sum of the multiples (and msm_best too, on the curves with a = 0 and bases other than the identity). For exactly 2^32 bases the cast of the length to u32 gives 0, the window size is 0, and msm_serial, and msm_parallel on one thread, panic by dividing by it unless all scalars are zero.", "quantifier": "all functions within the error bound, all curves, all lists of bases and scalars", "why_tests_cant": "The tests use one length up to 2^20 or so; a wrong window size shows only at particular lengths, and 2^32 bases do not fit in memory.", "anchors": ["src/msm.rs:msm_serial", "src/msm.rs:msm_best"]}
{"id": "C67", "title": "The modular inverter calls its inner procedure at most 15, 22 or 25 times, depending on the size of the field", "statement": "The division steps, started from an odd modulus f and a value g both at most M, reach g = 0 within n steps as soon as (3/2)^n exceeds 4M^2. Hence the loop of the inverter ends after k calls of jump as soon as (3/2)^(62k) exceeds 4 times the square of the larger of modulus and value, and for the fields of the crate after at most 15 calls (moduli below 2^256), 22 (bls12381 Fq) or 25 (pluto_eris Fp and Fq).", "quantifier": "all odd moduli, all values, all field elements of the ten fields", "why_tests_cant": "The loop has no counter: it ends when g happens to become zero. Random elements all take about the same number of rounds, and an element on which the loop runs much longer, or for ever, would not be met by sampling.", "anchors": ["src/ff_ext/inverse.rs:invert", "src/ff_ext/inverse.rs:jump", "derive/src/field/mod.rs:invert"]}
{"id": "C68", "title": "The Legendre symbol takes at most 243, 398 or 479 rounds of the outer loop, depending on the size of the field", "statement": "For arguments of b bits the outer loop of jacobi ends after at most k + 1 rounds as soon as 36b < 2211 + 29k. Hence legendre of the fields of the crate ends within 243 rounds (moduli below 2^256), 398 (bls12381 Fq) or 479 (pluto_eris Fp and Fq). The bound holds although the approximations of the arguments may be as coarse as one bit.", "quantifier": "all arguments that jacobi accepts, all elements of the ten fields", "why_tests_cant": "The loop has no counter, and the progress of a round depends on approximations that are coarser than documented for some sizes of the leading limb. Random elements take about the same number of rounds; a pair on which the loop makes no progress would not be met by sampling.", "anchors": ["src/ff_ext/jacobi.rs:jacobi", "src/ff_ext/jacobi.rs:approximate", "derive/src/field/mod.rs:legendre"]}
{"id": "C69", "title": "The Fourier transform multiplies polynomials", "statement": "Two transforms with a 2^k-th root of unity, products of the values, the transform with the inverse root and multiplication by 2^-k give the coefficients of the product modulo X^(2^k) - 1, whatever the numbers of threads. With the roots taken from ROOT_OF_UNITY, ROOT_OF_UNITY_INV and TWO_INV of the field by repeated squaring and multiplication, for every k up to the two-adicity, polynomials with m and n coefficients, m + n <= 2^k + 1, padded with zeros, are multiplied: the entries are the sums of p_j q_(i-j).", "quantifier": "all ten fields, all k up to the two-adicity, all numbers of threads, all coefficient lists", "why_tests_cant": "The crate only has a benchmark of the transform, whose result is not looked at. Sample vectors would not tell whether every length, number of threads and root gives the product.", "anchors": ["src/fft.rs:best_fft", "derive/src/field/mod.rs:ROOT_OF_UNITY", "derive/src/field/mod.rs:ROOT_OF_UNITY_INV", "derive/src/field/mod.rs:TWO_INV"]}
{"id": "C70", "title": "DELTA, ROOT_OF_UNITY and ZETA split the multiplicative group into disjoint cosets", "statement": "With p - 1 = 2^S t, t odd, DELTA has order exactly t and ROOT_OF_UNITY order exactly 2^S, and every non-zero element of the field is DELTA^i * ROOT_OF_UNITY^j for exactly one pair 0 <= i < t, 0 <= j < 2^S. ZETA has order exactly 3 and the products ZETA^i * ROOT_OF_UNITY^j, 0 <= i < 3, 0 <= j < 2^S, are pairwise distinct.", "quantifier": "all ten fields, all non-zero elements, all pairs of exponents", "why_tests_cant": "The test suite checks single powers of the constants. Disjointness and covering are statements about up to 2^446 elements; a DELTA of smaller order would only show when two columns of a permutation argument collide.", "anchors": ["derive/src/field/mod.rs:DELTA", "derive/src/field/mod.rs:ROOT_OF_UNITY", "derive/src/field/mod.rs:ZETA"]}
