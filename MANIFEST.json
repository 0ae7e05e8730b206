{
 "claims": [
  {
   "property": "C01",
   "status": "proved",
   "theorems": [
    "C01_add",
    "C01_sub",
    "C01_neg",
    "C01_double",
    "C01_sum",
    "represents_total",
    "represents_onto"
   ],
   "note": "Limb-level model of the generated portable code, every limb count and odd modulus. The asm backend is not modelled."
  },
  {
   "property": "C02",
   "status": "proved",
   "theorems": [
    "C02_mul",
    "C02_square",
    "C02_square_is_mul",
    "C02_product",
    "C02_zero_one"
   ],
   "note": "Limb-level model; asm backend not modelled."
  },
  {
   "property": "C03",
   "status": "proved",
   "theorems": [
    "C03_from_raw",
    "C03_from_u64",
    "C03_from_u128",
    "C03_from_bool"
   ],
   "note": "from_u128 needs at least two limbs, which all ten fields have."
  },
  {
   "property": "C04",
   "status": "proved",
   "theorems": [
    "C04_to_bytes",
    "C04_from_bytes",
    "C04_to_repr",
    "C04_from_repr",
    "C04_roundtrip",
    "C04_no_malleability"
   ],
   "note": ""
  },
  {
   "property": "C05",
   "status": "proved",
   "theorems": [
    "C05_from_uniform_bytes"
   ],
   "note": "Field::random is from_uniform_bytes of 2*size RNG bytes by definition."
  },
  {
   "property": "C06",
   "status": "proved",
   "theorems": [
    "C06_invert",
    "C06_crate",
    "C06_inverter"
   ],
   "note": "Bernstein-Yang inversion as written in src/ff_ext/inverse.rs, including the conversions between 64- and 62-bit chunks and the termination of the loop (C67 bounds its rounds)."
  },
  {
   "property": "C07",
   "status": "proved",
   "theorems": [
    "C07_crate",
    "C07_lint",
    "C07_legendre",
    "C07_jacobi",
    "C07_jacobinary",
    "C07_symbol_prime",
    "C07_symbol_product",
    "C07_residue_tests",
    "C07_limbs",
    "C07_bn256_fq2",
    "C07_bls12381_fq2",
    "C07_pluto_fp2",
    "C07_qnr_test",
    "C07_approximate",
    "C07_approximate_doc_refuted"
   ],
   "note": "Termination included.  C07_jacobi: any odd lower argument, prime or not.  Also legendre of the three quadratic extensions.  The comment of approximate is refuted: it keeps fewer than 32 high bits when the top limb has more than 32 leading zeros; the result does not depend on it."
  },
  {
   "property": "C08",
   "status": "proved",
   "theorems": [
    "C08_sqrt",
    "C08_crate"
   ],
   "note": "The Tonelli-Shanks helper lives in the external crate ff and is modelled from its published source."
  },
  {
   "property": "C09",
   "status": "proved",
   "theorems": [
    "C09_constants",
    "C09_crate",
    "C09_generator"
   ],
   "note": "Also: MULTIPLICATIVE_GENERATOR generates the whole multiplicative group (order p-1) in all ten fields."
  },
  {
   "property": "C10",
   "status": "proved",
   "theorems": [
    "C10_moduli_prime",
    "C10_no_divisor"
   ],
   "note": "Pocklington certificates; the theorem is proved in Coq, certificates checked by computation over Bignums."
  },
  {
   "property": "C11",
   "status": "proved",
   "theorems": [
    "C11_eq",
    "C11_cmp",
    "C11_is_odd",
    "C11_to_le_bits"
   ],
   "note": ""
  },
  {
   "property": "C12",
   "status": "partial",
   "theorems": [
    "C12_exact",
    "C12_partial",
    "C12_refuted"
   ],
   "note": "The documented claim is false at (p-1)/2: both it and its negation are reported largest (C12_refuted). C12_partial is the claim for every other value."
  },
  {
   "property": "C13",
   "status": "proved",
   "theorems": [
    "C13_roundtrip",
    "C13_from_raw_bytes",
    "C13_read_raw"
   ],
   "note": ""
  },
  {
   "property": "C14",
   "status": "proved",
   "theorems": [
    "C14_field",
    "C14_field_inverse",
    "C14_points",
    "C14_points_inverse",
    "C14_module",
    "C14_wrong_length",
    "C14_interleaving"
   ],
   "note": "Both code paths, any thread count; C14_interleaving covers every interleaving of the statements inside rayon::join.  For points the inputs must be killed by the scalar modulus."
  },
  {
   "property": "C15",
   "status": "proved",
   "theorems": [
    "C15_bound",
    "C15_recompose",
    "C15_scalar"
   ],
   "note": "Every window width from 1 to 24; width 25 loses bits (Example C15_width_25_fails), which msm would choose from about 2.6e10 points."
  },
  {
   "property": "C16",
   "status": "proved",
   "theorems": [
    "C16_serial",
    "C16_serial_acc",
    "C16_parallel",
    "C16_parallel_lengths"
   ],
   "note": "The f64 logarithm that selects the window is a parameter with values in 1..24.  With a non-identity accumulator msm_serial scales the accumulator (C16_serial_acc)."
  },
  {
   "property": "C17",
   "status": "partial",
   "theorems": [
    "C17_finite_partial",
    "C17_small_partial",
    "C17_secp256r1_refuted",
    "C17_identity_refuted"
   ],
   "note": "Proved for the ten curves with a = 0 and bases other than the identity, and for everything when the window is below 10.  Refuted otherwise: batch_add doubles without the coefficient a (secp256r1 panics on repeated bases) and treats an identity base as the point (0,0)."
  },
  {
   "property": "C18",
   "status": "proved",
   "theorems": [
    "C18_quad_mul",
    "C18_quad_square",
    "C18_quad_square_complex",
    "C18_cubic_mul",
    "C18_cubic_square",
    "C18_linear",
    "C18_nonresidue",
    "C18_mul_by_v",
    "C18_bn256",
    "C18_bls12381",
    "C18_pluto"
   ],
   "note": "Over any commutative ring; concrete towers over any representation of the base prime field."
  },
  {
   "property": "C19",
   "status": "proved",
   "theorems": [
    "C19_quad",
    "C19_cubic",
    "C19_towers"
   ],
   "note": ""
  },
  {
   "property": "C20",
   "status": "proved",
   "theorems": [
    "C20_fp6",
    "C20_fp12"
   ],
   "note": ""
  },
  {
   "property": "C21",
   "status": "partial",
   "theorems": [
    "C21_quad_partial",
    "C21_cubic_exact",
    "C21_refuted"
   ],
   "note": "False as stated: is_zero of the cubic extension (hence Fp6 and Fp12) ignores the third coefficient (C21_refuted). C21_quad_partial is the quadratic case; C21_cubic_exact says what the cubic one computes."
  },
  {
   "property": "C22",
   "status": "proved",
   "theorems": [
    "C22_bn256",
    "C22_bls12381",
    "C22_pluto",
    "C22_tables_denote"
   ],
   "note": ""
  },
  {
   "property": "C23",
   "status": "proved",
   "theorems": [
    "C23_bn256",
    "C23_bls12381",
    "C23_pluto"
   ],
   "note": ""
  },
  {
   "property": "C24",
   "status": "partial",
   "theorems": [
    "C24_bn256",
    "C24_bls12381",
    "C24_pluto_partial",
    "C24_pluto_zero_refuted"
   ],
   "note": "Algorithm 9 (bn256, bls12-381) for every element.  Algorithm 10 (pluto) for every non-zero element; refuted for zero, where sqrt calls itself for ever."
  },
  {
   "property": "C25",
   "status": "proved",
   "theorems": [
    "C25_add",
    "C25_mixed",
    "C25_never_zero_triple",
    "C25_sum"
   ],
   "note": "All eleven curves, any representation of the base field; formulas as written in curve.rs for a=0 and general a."
  },
  {
   "property": "C26",
   "status": "proved",
   "theorems": [
    "C26_group",
    "C26_eq"
   ],
   "note": ""
  },
  {
   "property": "C27",
   "status": "proved",
   "theorems": [
    "C27_mul",
    "C27_mul_affine"
   ],
   "note": "Scalar given by its Montgomery limbs; the bytes are the modelled to_repr."
  },
  {
   "property": "C28",
   "status": "partial",
   "theorems": [
    "C28_eq",
    "C28_conversions",
    "C28_batch_normalize",
    "C28_affine_on_curve",
    "C28_proj_on_curve_partial",
    "C28_proj_on_curve_refuted",
    "C28_jacobian"
   ],
   "note": "All parts proved except that the projective is_on_curve accepts every triple with z=0, including (0,0,0) (C28_proj_on_curve_refuted); exact for z<>0."
  },
  {
   "property": "C29",
   "status": "partial",
   "theorems": [
    "C29_six",
    "C29_x0_partial",
    "C29_x0_refuted",
    "C29_quad_partial",
    "C29_quad_refuted",
    "C29_quad_exact"
   ],
   "note": "Proved for every point of bn256 G1, grumpkin, secp256k1, secq256k1, pluto and eris.  secp256r1 and bls12381 G1: all points but the two with x = 0, whose encodings are rejected (C29_x0_refuted).  bn256 G2, bls12381 G2, triton: all points whose y is told from -y by the sign bit; refuted for the others with explicit points; C29_quad_exact: there the decoder returns the point or its negative, which have the same encoding."
  },
  {
   "property": "C30",
   "status": "partial",
   "theorems": [
    "C30_prime",
    "C30_quad_partial",
    "C30_quad_panic_refuted",
    "C30_quad_canonical_refuted",
    "C30_quad_panic_exact"
   ],
   "note": "Proved for the eight curves over prime fields, for every byte string.  On the three quadratic curves a coefficient that is not below the modulus makes the decoder panic and some accepted strings are not canonical.  C30_quad_panic_exact: these are the only strings that panic, and none of them is the encoding of a point."
  },
  {
   "property": "C31",
   "status": "partial",
   "theorems": [
    "C31_prime",
    "C31_quad_partial",
    "C31_quad_panic_refuted",
    "C31_quad_panic_exact"
   ],
   "note": "Proved for the eight curves over prime fields.  On the three quadratic curves everything but the absence of panics, which is refuted; C31_quad_panic_exact says which strings panic."
  },
  {
   "property": "C32",
   "status": "partial",
   "theorems": [
    "C32_partial",
    "C32_zero_refuted",
    "C32_read_refuted"
   ],
   "note": "All eleven curves: round trips, and the affine from_raw_bytes accepts exactly the curve points.  Refuted: the projective from_raw_bytes accepts (0,0,0), and read_raw does not check the curve equation."
  },
  {
   "property": "C33",
   "status": "partial",
   "theorems": [
    "C33_whole",
    "C33_prime",
    "C33_bls_g1_refuted",
    "C33_quad_refuted"
   ],
   "note": "Proved for the seven curves of prime order (every point is a multiple of the generator).  Refuted for bls12381 G1, G2, bn256 G2 and triton with explicit accepted points outside the group."
  },
  {
   "property": "C34",
   "status": "proved",
   "theorems": [
    "C34_decompose",
    "C34_mul_512",
    "C34_curve"
   ],
   "note": "The pasta fields come from the external crate pasta_curves; their moduli and ZETA are from its published source. C34_curve: k*P = k1*P - k2*endo(P) on the curves modelled here."
  },
  {
   "property": "C35",
   "status": "partial",
   "theorems": [
    "C35_endo",
    "C35_endo_mul",
    "C35_secp256r1_refuted"
   ],
   "note": "Proved for the ten curves with a=0. On secp256r1 endo() maps the generator off the curve (C35_secp256r1_refuted)."
  },
  {
   "property": "C36",
   "status": "partial",
   "theorems": [
    "C36_map",
    "C36",
    "C36_bls_g1_partial",
    "C36_bls_g1_refuted"
   ],
   "note": "Nine suites: the map returns an affine curve point for every u, for any is_odd; for the SVDW suites given a correct non-residue test, which the crate's own is (C07_qnr_test).  bls12381 G1: holds unless the intermediate point is in the kernel of the isogeny; refuted for an explicit u, where the result is (0,0,0)."
  },
  {
   "property": "C37",
   "status": "proved",
   "theorems": [
    "C37_expand",
    "C37_panics",
    "C37_field",
    "C37_quad",
    "C37_suites"
   ],
   "note": "For an arbitrary hash function; RFC 9380 written down in SpecHash.v."
  },
  {
   "property": "C38",
   "status": "partial",
   "theorems": [
    "C38_literals",
    "C38_secp256k1",
    "C38_bls_g2",
    "C38_bls_g1_partial",
    "C38_bls_g1_refuted",
    "C38_identity_refuted"
   ],
   "note": "Every affine point of the isogenous curve for secp256k1 and bls12381 G2.  Refuted: the 11-isogeny of bls12381 G1 has rational kernel points and all three maps send those and the identity to (0,0,0)."
  },
  {
   "property": "C39",
   "status": "proved",
   "theorems": [
    "C39",
    "C39_pairing"
   ],
   "note": "Any number of terms, any affine coordinates (on the curve or not), for the three engines."
  },
  {
   "property": "C40",
   "status": "proved",
   "theorems": [
    "C40",
    "C40_exponent"
   ],
   "note": "Exponent (p^12-1)/r for bn256 and pluto, three times that for bls12-381.  Zero gives the panic of unwrap."
  },
  {
   "property": "C41",
   "status": "partial",
   "theorems": [
    "C41_double",
    "C41_add",
    "C41_digits",
    "C41_families",
    "C41_literals",
    "C41_add_equal_refuted"
   ],
   "note": "Doubling for every R; addition for every R and Q with different x.  Missing: addition has no doubling case, so R = Q gives (0,0,0) (C41_add_equal_refuted); C47 shows the case does not arise in the loops for Q of order r."
  },
  {
   "property": "C42",
   "status": "proved",
   "theorems": [
    "C42",
    "C42_neg_cyclotomic",
    "C42_default_refuted"
   ],
   "note": "The group is { x | x^r = 1 }, which contains every result of final_exponentiation (C40).  Gt::default() is zero and not in the group (C42_default_refuted).  Gt::generator is unimplemented!() in the source."
  },
  {
   "property": "C43",
   "status": "partial",
   "theorems": [
    "C43_plain",
    "psi_literals",
    "C43_bls_g1",
    "C43_bls_g2",
    "C43_bn256_g2",
    "C43_triton",
    "C43_into_subgroup_bls_refuted",
    "C43_into_subgroup_bn256_refuted",
    "C43_into_subgroup_triton_refuted"
   ],
   "note": "On all eleven curves clear_cofactor is multiplication by a stated integer (the h_eff of RFC 9380 on bls12-381) onto the group of the generator, and is_torsion_free accepts exactly that group.  The into_subgroup part fails: it accepts every point on bls12-381, panics on bn256 G2 and changes the point on triton (refuted theorems)."
  },
  {
   "property": "C44",
   "status": "proved",
   "theorems": [
    "C44_generator",
    "C44_discriminant",
    "C44_no_order_two",
    "C44_literals"
   ],
   "note": ""
  },
  {
   "property": "C45",
   "status": "partial",
   "theorems": [
    "C45_partial",
    "C45_uniform",
    "C45_refuted"
   ],
   "note": "Round trips and reduction of each half proved; every non-canonical string makes from_bytes panic instead of giving None (C45_refuted)."
  },
  {
   "property": "C46",
   "status": "partial",
   "theorems": [
    "C46_secp256k1",
    "C46_secp256r1",
    "C46_bls_g2",
    "C46_svdw",
    "C46_svdw_limbs",
    "C46_constants",
    "C36_bls_g1_partial",
    "C46_bls_g2_sgn_refuted",
    "C52_bls_g2_sgn",
    "C52_bn256_g2_sgn"
   ],
   "note": "The maps follow the RFC with is_odd as sgn0 (the SVDW maps with the crate's own residue test in C46_svdw_limbs); the constants are compared with the RFC except the isogeny coefficients, which C38 checks algebraically.  On the two G2 curves the sign part fails when c0 = 0: is_odd looks only at c0.  C46_bls_g2_sgn_refuted: for u = (0, 1) bls12-381 G2 takes the negative of the RFC point.  C52_*_sgn: the maps agree with the RFC when c0 of u and of y is not zero."
  },
  {
   "property": "C47",
   "status": "proved",
   "theorems": [
    "C47_bn256",
    "C47_bn256_killed",
    "C47_bls12381",
    "C47_pluto",
    "C47_pluto_killed"
   ],
   "note": "Every Q killed by r.  The exponent and its conjugation are as in the source.  Bilinearity of the ate pairing itself is not formalised."
  },
  {
   "property": "C48",
   "status": "proved",
   "theorems": [
    "C48_prime",
    "C48_bls_g1",
    "C48_bls_g2",
    "C48_bn256_g2",
    "C48_triton"
   ],
   "note": "From explicit independent points of coprime orders, the bound 2q+1 on the number of points and the absence of points of order two."
  },
  {
   "property": "C49",
   "status": "proved",
   "theorems": [
    "C49_bn256",
    "C49_pluto",
    "C49_bls12381"
   ],
   "note": "For the model's pairing functions, with panics excluded, identities included and any field representation.  Q must have order dividing r; P is any point of E(Fp)."
  },
  {
   "property": "C50",
   "status": "proved",
   "theorems": [
    "C50_bn256",
    "C50_pluto",
    "C50_bls12381"
   ],
   "note": "e(g1, g2) is computed in Coq from the model; perfect = non-degenerate, onto the r-th roots of unity, and exact for products."
  },
  {
   "property": "C51",
   "status": "proved",
   "theorems": [
    "C51_arith",
    "C51_agree",
    "C51_mul",
    "C51_decode",
    "C51_integers",
    "C51_mul_unreduced_refuted",
    "C51_from_mont_unreduced_refuted"
   ],
   "note": "The two _refuted theorems show that the hypothesis of reduced operands is needed: on unreduced elements (from_raw_bytes_unchecked) the asm build and the portable build differ."
  },
  {
   "property": "C52",
   "status": "partial",
   "theorems": [
    "C52_secp256k1",
    "C52_secp256r1",
    "C52_bn256_g1",
    "C52_grumpkin",
    "C52_secq256k1",
    "C52_pluto",
    "C52_eris",
    "C52_unique",
    "C52_panics",
    "C52_sha256",
    "C52_bls_g1_partial",
    "C52_bls_g2_partial",
    "C52_bn256_g2_partial",
    "C52_sgn",
    "C52_bls_g2_sgn",
    "C52_bn256_g2_sgn"
   ],
   "note": "Complete for the seven curves of prime order.  bls12-381 G1: messages whose u goes to the kernel of the isogeny are left out (there the crate returns (0,0,0), C36_bls_g1_refuted).  G2 of bls12-381 and bn256: with the sign of c0 in place of sgn0, equal to it unless c0 = 0."
  },
  {
   "property": "C53",
   "status": "proved",
   "theorems": [
    "C53_field",
    "C53_ext",
    "C53_uniform",
    "C53_point",
    "C53_point_exact",
    "C53_loop",
    "C53_gt",
    "C53_identity_refuted"
   ],
   "note": "The property does not promise a result other than the identity, as the documentation of Group::random does: C53_identity_refuted shows that bls12-381 G1 can return it."
  },
  {
   "property": "C54",
   "status": "proved",
   "theorems": [
    "C54_table",
    "C54_from_u64"
   ],
   "note": "The printing of the table as Rust source is not modelled."
  },
  {
   "property": "C55",
   "status": "partial",
   "theorems": [
    "C55_field",
    "C55_field_lower",
    "C55_quad",
    "C55_six",
    "C55_x0_partial",
    "C55_g2_partial",
    "C55_accept",
    "C55_text_refuted",
    "C55_g2_panic_refuted",
    "C55_subgroup_refuted"
   ],
   "note": "Complete for the fields and six curves.  Points inherit the defects of the compressed encoding: x = 0 is refused on secp256r1 and bls12-381 G1, the sign is lost on G2 if its component is 0, malformed G2 values panic, and points outside the group are accepted.  The text form accepts upper-case digits, so it is not canonical."
  },
  {
   "property": "C56",
   "status": "proved",
   "theorems": [
    "C56_sqrt_ratio",
    "C56_sqrt_alt",
    "C56_ext_refuted"
   ],
   "note": "On the extension fields the function is unimplemented (C56_ext_refuted)."
  },
  {
   "property": "C57",
   "status": "partial",
   "theorems": [
    "C57_cmp",
    "C57_lex_partial",
    "C57_lex_refuted",
    "C57_constants",
    "C57_roles_refuted",
    "C57_char_le_bits"
   ],
   "note": "lexicographically_largest agrees with the order unless the deciding coefficient is (p-1)/2 (C57_lex_refuted, as in C12).  C57_roles_refuted: every element of the base field is a square in the extension, so ROOT_OF_UNITY and MULTIPLICATIVE_GENERATOR do not have the roles trait PrimeField gives them (the source says so in a comment)."
  },
  {
   "property": "C58",
   "status": "proved",
   "theorems": [
    "C58_words",
    "C58_inverter",
    "C58_invert",
    "C58_cint",
    "C58_jacobi",
    "C58_legendre",
    "C58_jacobi_preconditions",
    "C58_approximate",
    "C58_shr",
    "C58_booth",
    "C58_booth_31"
   ],
   "note": "usize products in get_booth_index are taken to fit; debug assertions on slice lengths elsewhere are not part of this property."
  },
  {
   "property": "C59",
   "status": "partial",
   "theorems": [
    "C59_sign",
    "C59_verify",
    "C59_complete",
    "C59_malleable",
    "C59_coordinates_refuted",
    "C59_zero_r_refuted"
   ],
   "note": "Everything holds except the last sentence: coordinates() of the identity is (0, 0), so the verifier accepts r = 0 for the hash 0.  FIPS 186 rejects r = 0."
  },
  {
   "property": "C60",
   "status": "partial",
   "theorems": [
    "C60_bn256",
    "C60_pluto",
    "C60_bls_g2",
    "C60_bls_g1_partial",
    "C60_subgroup_refuted"
   ],
   "note": "Complete for bn256, pluto and bls12-381 G2.  bls12-381 G1: messages whose map hits the kernel of the isogeny are excluded (see C52), and without a subgroup test, which no decoder makes, the equation also accepts points that differ from the signature by a point killed by 1-x (C60_subgroup_refuted)."
  },
  {
   "property": "C61",
   "status": "proved",
   "theorems": [
    "C61_field",
    "C61_field_order",
    "C61_modulus",
    "C61_tower",
    "C61_point",
    "C61_proj",
    "C61_proj_ambiguous"
   ],
   "note": ""
  },
  {
   "property": "C62",
   "status": "proved",
   "theorems": [
    "C62_bn256",
    "C62_bls12381",
    "C62_pluto",
    "C62_lagrange"
   ],
   "note": "The hypothesis that the secret is not 0 keeps the identity out of the bases (see C17).  The scheme itself (reference string, division by X - z, the two sides of the check) is not code of the crate; it is written out in Props_Commit.v from the functions of the crate."
  },
  {
   "property": "C63",
   "status": "proved",
   "theorems": [
    "C63_select",
    "C63_ct_eq",
    "C63_fields"
   ],
   "note": "The word operations belong to the crate subtle and are modelled from its published source."
  },
  {
   "property": "C64",
   "status": "proved",
   "theorems": [
    "C64_cycle",
    "C64_transfer",
    "C64_embedding",
    "C64_no_small_degree"
   ],
   "note": ""
  },
  {
   "property": "C65",
   "status": "proved",
   "theorems": [
    "C65_parallel",
    "C65_best",
    "C65_sum",
    "C65_terminates"
   ],
   "note": "The thread pool is modelled as an arbitrary scheduler; rayon itself is not modelled."
  },
  {
   "property": "C66",
   "status": "proved",
   "theorems": [
    "C66_range",
    "C66_msm",
    "C66_truncation"
   ],
   "note": "Uses the axioms of the real numbers of the standard library.  The error bound of the floating point logarithm is a hypothesis."
  },
  {
   "property": "C67",
   "status": "proved",
   "theorems": [
    "C67_divsteps",
    "C67_inverter",
    "C67_crate"
   ],
   "note": "The bound on the division steps is proved here from scratch; it is weaker than that of Bernstein and Yang (879 steps instead of 741 for 256 bits), whose proof is a large computation."
  },
  {
   "property": "C68",
   "status": "proved",
   "theorems": [
    "C68_jacobi",
    "C68_crate"
   ],
   "note": "The bound is linear but not sharp: typical elements take 14, 23 and 27 rounds."
  },
  {
   "property": "C69",
   "status": "proved",
   "theorems": [
    "C69_convolution",
    "C69_multiply"
   ],
   "note": "The composition (multiply) is not code of the crate; it is written out in Props_Poly.v from the functions and constants of the crate."
  },
  {
   "property": "C70",
   "status": "proved",
   "theorems": [
    "C70_delta",
    "C70_zeta"
   ],
   "note": ""
  }
 ]
}